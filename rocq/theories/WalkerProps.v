(** The Walker flow rule and the Walker-Krempl rate switch *)
From Verif Require Import Base Diff NemlMathModel NemlMathSpec SurfModel HardModel PlastModel PlastSpec ViscoModel ViscoSpec TensorModel SolverModel SubstepModel SubstepSpec HistModel HistProofs.
From Verif Require Import WalkerModel WalkerSpec WalkerProofs WalkerDeriv WalkerVars WalkerMore WalkerInv WalkerEx.
From Coq Require Import String List Arith ZArith Lia Lra.
Import ListNotations.
Open Scope R_scope.

(** ** C74 *)
(** every reported derivative of the rates, wherever the deviatoric strain rate does not vanish *)
Theorem C74_derivatives : forall P C V lam eps0, vflow_exact P V ->
  gflow_exact (fun T s a e => P T s a /\ (lam T = 0 \/ norm2 6 (dev_vec e) <> 0)) (WKSwitch C V lam eps0).
Proof. exact wk_exact. Qed.
Print Assumptions C74_derivatives.
(** hence the Jacobian of the update *)
Theorem C74_jacobian : forall P C V lam eps0 next past st, vflow_exact P V -> 0 < gi_dt next past ->
  is_jac (6 + vf_n V) (6 + vf_n V)
    (fun x => P (ld_T next) x (hist_of x) /\ (lam (ld_T next) = 0 \/ norm2 6 (dev_vec (gi_edot next past)) <> 0))
    (gi_R (WKSwitch C V lam eps0) next past st) (gi_J (WKSwitch C V lam eps0) next past).
Proof. exact wk_jacobian. Qed.
Print Assumptions C74_jacobian.
(** the derivative of the rate scaling *)
Theorem C74_scale_derivative : forall lam eps0 T (e : R -> vec) t ve, path 6 e t ve -> lam T = 0 \/ norm2 6 (dev_vec (e t)) <> 0 ->
  is_derive (fun u => wk_kappa lam eps0 (e u) T) t (dot 6 (wk_dkappa lam eps0 (e t) T) ve).
Proof. exact wk_kappa_deriv. Qed.
Print Assumptions C74_scale_derivative.
(** there is none at zero deviatoric strain rate *)
Theorem C74_scale_derivative_refuted : forall lam eps0 T e, eps0 <> 0 -> lam T <> 0 -> norm2 6 (dev_vec e) <> 0 ->
  ~ ex_derive (fun u => wk_kappa lam eps0 (fun i => u * e i) T) 0.
Proof. exact wk_kink. Qed.
Print Assumptions C74_scale_derivative_refuted.
(** with the switch at one the response is rate independent: strain rate and rates scale together *)
Theorem C74_rate_independent : forall C V lam eps0 s a e T c, 0 <= c -> lam T = 1 ->
  (forall i, (i < 6)%nat -> gf_s (WKSwitch C V lam eps0) s a (fun k => c * e k) T 0 i = c * gf_s (WKSwitch C V lam eps0) s a e T 0 i) /\
  (forall i, gf_a (WKSwitch C V lam eps0) s a (fun k => c * e k) T 0 i = c * gf_a (WKSwitch C V lam eps0) s a e T 0 i).
Proof. exact wk_rate_independent. Qed.
Print Assumptions C74_rate_independent.
(** with the switch at zero it is the viscoplastic model *)
Theorem C74_rate_dependent : forall C V lam eps0 limit s a e T Td, lam T = 0 ->
  (forall i, (i < 6)%nat -> pv (vf_gt V) s a T i = 0 /\ pv (vf_gT V) s a T i = 0) ->
  (forall i, (i < 6)%nat -> gf_s (WKSwitch C V lam eps0) s a e T Td i = gf_s (TVP C V limit) s a e T Td i) /\
  (forall i, (i < vf_n V)%nat -> gf_a (WKSwitch C V lam eps0) s a e T Td i = gf_a (TVP C V limit) s a e T Td i) /\
  gf_work (WKSwitch C V lam eps0) s a e T Td = gf_work (TVP C V limit) s a e T Td.
Proof. exact wk_lam0. Qed.
Print Assumptions C74_rate_dependent.
Theorem C74_scale_positive : forall lam eps0 e T, 0 < eps0 -> 0 <= lam T <= 1 -> 0 <= wk_kappa lam eps0 e T.
Proof. exact wk_kappa_nonneg. Qed.
Print Assumptions C74_scale_positive.
(** at the reference rate the switch has no effect *)
Theorem C74_reference_rate : forall lam eps0 e T, eps0 <> 0 -> sqrt (2 / 3) * norm2 6 (dev_vec e) = eps0 -> wk_kappa lam eps0 e T = 1.
Proof. exact wk_kappa_ref. Qed.
Print Assumptions C74_reference_rate.
(** the reported rate of plastic work is stress times inelastic strain rate, up to the parts of flow that do not go with the flow rate *)
Theorem C74_dissipation : forall C S V lam eps0 s a e T Td, left_inverse 6 S (C T) ->
  dot 6 s (fun i => e i - mv 6 S (gf_s (WKSwitch C V lam eps0) s a e T Td) i)
  = gf_work (WKSwitch C V lam eps0) s a e T Td - dot 6 s (fun i => Td * pv (vf_gT V) s a T i + pv (vf_gt V) s a T i).
Proof. exact wk_work. Qed.
Print Assumptions C74_dissipation.
(** a strain rate of shear: the scaling is not one, and the viscoplastic model has exact derivatives *)
Example C74_case : let e := fun i : nat => if Nat.eqb i 3 then 2 else 0 in
  norm2 6 (dev_vec e) <> 0 /\ wk_kappa (fun _ => 1) 1 e 0 = sqrt (2 / 3) * 2 /\
  vflow_exact (tf_domain 1) (TestFlow 1 1 1 1) /\ tf_domain 1 0 (fun i => if Nat.eqb i 3 then 5 else 0) (fun _ => 0).
Proof.
  cbv zeta. set (e := fun i : nat => if Nat.eqb i 3 then 2 else 0).
  assert (E : norm2 6 (dev_vec e) = 2).
  { unfold norm2, dot. cbn [rsum]. unfold dev_vec, e. cbn.
    match goal with |- sqrt ?x = 2 => replace x with (2 * 2) by field end. apply sqrt_square. lra. }
  split; [rewrite E; lra|]. split; [unfold wk_kappa; rewrite E; field|]. split; [apply tf_exact|].
  unfold tf_domain. split; [lra|].
  assert (G : 5 <= norm2 6 (sym_dev (fun i => if Nat.eqb i 3 then 5 else 0))) by (apply ge_norm; [lra|]; unfold sym_dev, sym_trace; cbn; lra).
  rewrite wsn. split; [lra|]. unfold tf_over. rewrite wsn. assert (Q := sqrt32_ge).
  assert (5 <= sqrt (3 / 2) * norm2 6 (sym_dev (fun i => if Nat.eqb i 3 then 5 else 0))); [replace 5 with (1 * 5) at 1 by ring; apply Rmult_le_compat; lra|].
  cbn. lra.
Qed.

(** ** C75 *)
(** the flow rule with any number of backstresses, for variables with exact derivatives *)
Theorem C75_flow_derivatives : forall w Pa PR PD PX, soft_exact Pa (w_soft w) ->
  srate_exact PR (sv_p (w_R w)) -> srate_exact PR (sv_t (w_R w)) ->
  srate_exact PD (sv_p (dv_var (w_D w))) -> srate_exact PD (sv_t (dv_var (w_D w))) ->
  (forall x, sr_D (sv_p (dv_var (w_D w))) x = 0 /\ sr_D (sv_t (dv_var (w_D w))) x = 0) ->
  (forall i, (i < w_nX w)%nat -> krate_exact (PX i) (kv_p (w_X w i)) /\ krate_exact (PX i) (kv_t (w_X w i))) ->
  vflow_exact (fun T s a => w_domain w Pa T s a /\ w_var_domain w PR PD PX T s a) (WalkerFlow w).
Proof. exact walker_exact. Qed.
Print Assumptions C75_flow_derivatives.
(** with the shipped softening, isotropic, drag and kinematic variables *)
Theorem C75_full_model : forall eps0 phi0 phi1 scaling n k m r0 Rinf R0 r1 r2 d0 d1 d2 Dxi D0 nX ks, (forall i, k_soft (ks i) = WalkerSoftening phi0 phi1) ->
  let w := full_walker eps0 phi0 phi1 scaling n k m r0 Rinf R0 r1 r2 d0 d1 d2 Dxi D0 nX ks in
  let Pa := fun a (T : R) => 0 < a /\ a <> ainc in
  vflow_exact (fun T s a => w_domain w Pa T s a /\
     w_var_domain w (fun x => st_h x <> R0 (st_T x)) (fun x => D0 < st_h x /\ Dxi (st_T x) <> 0 /\ Pa (st_a x) (st_T x))
       (fun i x => wkin_dom (set_scale (ks i) scaling) Pa x) T s a) (WalkerFlow w).
Proof. exact full_walker_exact. Qed.
Print Assumptions C75_full_model.
Theorem C75_test_flow : forall eps0 D n K, vflow_exact (tf_domain D) (TestFlow eps0 D n K).
Proof. exact tf_exact. Qed.
Print Assumptions C75_test_flow.
Theorem C75_no_softening : soft_exact (fun _ _ => True) NoSoftening.
Proof. exact nosoft_exact. Qed.
Print Assumptions C75_no_softening.
Theorem C75_softening : forall phi0 phi1, soft_exact (fun a T => 0 < a /\ a <> ainc) (WalkerSoftening phi0 phi1).
Proof. exact wsoft_exact. Qed.
Print Assumptions C75_softening.
(** softening starts at one, never falls below, and does not jump *)
Theorem C75_softening_value : forall phi0 phi1 T, (forall a, a <= 0 -> ws_phi phi0 phi1 a T = 1) /\
  phi0 T * cpow ainc (phi1 T) / ainc * ainc + 1 = ws_phi phi0 phi1 ainc T /\
  (0 <= phi0 T -> forall a, 1 <= ws_phi phi0 phi1 a T).
Proof. exact wsoft_value. Qed.
Print Assumptions C75_softening_value.
(** at negative plastic strain the reported slope is wrong *)
Theorem C75_softening_refuted : forall phi0 phi1 T a, a < 0 -> phi0 T <> 0 ->
  is_derive (fun x => ws_phi phi0 phi1 x T) a 0 /\ ws_dphi phi0 phi1 a T <> 0.
Proof. exact wsoft_negative. Qed.
Print Assumptions C75_softening_refuted.
Theorem C75_scaling : forall Q Rgas Tref T, arrhenius Q Rgas Tref Tref = 1 /\ 0 < arrhenius Q Rgas Tref T.
Proof. exact arrhenius_facts. Qed.
Print Assumptions C75_scaling.
Theorem C75_scaling_grows : forall q Rgas Tref T1 T2, 0 <= q -> 0 < Rgas -> 0 < T1 -> T1 <= T2 ->
  arrhenius (fun _ => q) Rgas Tref T1 <= arrhenius (fun _ => q) Rgas Tref T2.
Proof. exact arrhenius_monotone. Qed.
Print Assumptions C75_scaling_grows.
Theorem C75_isotropic : forall r0 Rinf R0 r1 r2, srate_exact (fun x => st_h x <> R0 (st_T x)) (sv_p (WalkerIso r0 Rinf R0 r1 r2)) /\
  srate_exact (fun x => st_h x <> R0 (st_T x)) (sv_t (WalkerIso r0 Rinf R0 r1 r2)).
Proof. exact wiso_exact. Qed.
Print Assumptions C75_isotropic.
Theorem C75_drag : forall d0 d1 d2 Dxi D0 S scale Pa, soft_exact Pa S ->
  let P := fun x => D0 < st_h x /\ Dxi (st_T x) <> 0 /\ Pa (st_a x) (st_T x) in
  srate_exact P (sv_p (dv_var (WalkerDrag d0 d1 d2 Dxi D0 S scale))) /\ srate_exact P (sv_t (dv_var (WalkerDrag d0 d1 d2 Dxi D0 S scale))).
Proof. exact wdrag_exact. Qed.
Print Assumptions C75_drag.
(** not below the initial drag stress *)
Theorem C75_drag_refuted : forall d0 d1 d2 Dxi D0 S scale, ~ srate_exact (fun x => st_h x < D0) (sv_t (dv_var (WalkerDrag d0 d1 d2 Dxi D0 S scale))).
Proof. exact wdrag_below. Qed.
Print Assumptions C75_drag_refuted.
Theorem C75_frederick_armstrong : forall c g P, krate_exact P (kv_p (FAKin c g)) /\ krate_exact P (kv_t (FAKin c g)).
Proof. exact fakin_exact. Qed.
Print Assumptions C75_frederick_armstrong.
Theorem C75_kinematic : forall p Pa, krate_exact (wkin_dom p Pa) (kv_p (WalkerKin p)).
Proof. exact wkin_p_exact. Qed.
Print Assumptions C75_kinematic.
Theorem C75_kinematic_recovery : forall p Pa, soft_exact Pa (k_soft p) -> krate_exact (wkin_dom p Pa) (kv_t (WalkerKin p)).
Proof. exact wkin_t_exact. Qed.
Print Assumptions C75_kinematic_recovery.
(** at the initial drag stress the reported derivative by the isotropic strength is wrong *)
Theorem C75_initial_state_refuted : forall w s a T, w_m w T <> 0 -> a 2%nat = dv_0 (w_D w) T -> a 2%nat <> 0 -> w_pre w a T <> 0 -> w_n w T <> 0 -> 0 < w_over w s a T ->
  is_derive (fun u => w_y w s (fun i => if Nat.eqb i 1 then a i + u else a i) T) 0 0 /\ w_ya w s a T 1%nat <> 0.
Proof. exact w_initial_drag. Qed.
Print Assumptions C75_initial_state_refuted.
(** the limit of the backstress jumps where plastic strain begins *)
Theorem C75_kinematic_limit_refuted : forall p x, continuous (fun a => k_L p (mkSt (st_h x) a (st_ad x) (st_D x) (st_s x) (st_g x) (st_T x))) 0 ->
  k_l p (st_T x) = k_l1 p (st_T x) + 1.
Proof. exact k_L_jump. Qed.
Print Assumptions C75_kinematic_limit_refuted.
(** a state of the shipped model that flows, and the initial state *)
Example C75_case : let w := ex_walker in let Pa := fun a (T : R) => 0 < a /\ a <> ainc in
  w_domain w Pa 0 ex_s ex_a /\
  w_var_domain w (fun x => st_h x <> one (st_T x)) (fun x => 1 < st_h x /\ one (st_T x) <> 0 /\ Pa (st_a x) (st_T x))
    (fun i x => wkin_dom (set_scale ex_kin one) Pa x) 0 ex_s ex_a /\ 0 < w_y w ex_s ex_a 0.
Proof. exact ex_in_domain. Qed.
Example C75_initial_case : let a := whist 0 0 1 (fun _ _ => 0) in
  w_init ex_walker 2%nat = 1 /\ w_m ex_walker 0 <> 0 /\ a 2%nat = dv_0 (w_D ex_walker) 0 /\ w_pre ex_walker a 0 <> 0 /\ 0 < w_over ex_walker ex_s a 0.
Proof. exact ex_initial. Qed.

(** ** C76 *)
(** the plastic strain grows by the equivalent plastic strain *)
Theorem C76_plastic_strain_measure : forall w s a, sym_norm (w_d w s a) <> 0 -> sqrt (2 / 3) * sym_norm (w_g w s a) = 1.
Proof. exact w_g_length. Qed.
Print Assumptions C76_plastic_strain_measure.
(** there is flow exactly at positive overstress *)
Theorem C76_flow : forall w s a T, 0 < w_pre w a T -> 0 <= w_y w s a T /\ (w_y w s a T = 0 <-> w_over w s a T <= 0).
Proof. exact w_y_facts. Qed.
Print Assumptions C76_flow.
Theorem C76_dissipation : forall w s a, dot 6 (w_g w s a) (w_d w s a) = sqrt (3 / 2) * sym_norm (w_d w s a).
Proof. exact w_dissipation. Qed.
Print Assumptions C76_dissipation.
Theorem C76_deviatoric : forall w s a T i k ps, (forall j, (j < w_nX w)%nat -> traceless (wX a j)) -> (i < w_nX w)%nat -> traceless (w_g w s a) /\
  ((exists c g, w_X w i = FAKin c g) \/ (exists p, w_X w i = WalkerKin p) -> k = kv_p \/ k = kv_t -> forall ar,
   traceless (wX (pv (w_rates w ar ps k) s a T) i)).
Proof. exact w_rates_traceless. Qed.
Print Assumptions C76_deviatoric.
Theorem C76_deviatoric_frederick_armstrong : forall c g x, traceless (st_h x) -> traceless (st_g x) -> traceless (kr (kv_p (FAKin c g)) x).
Proof. exact fa_traceless. Qed.
Print Assumptions C76_deviatoric_frederick_armstrong.
Theorem C76_deviatoric_walker : forall p x, traceless (st_h x) -> traceless (st_g x) ->
  traceless (kr (kv_p (WalkerKin p)) x) /\ traceless (kr (kv_t (WalkerKin p)) x).
Proof. exact wk_traceless. Qed.
Print Assumptions C76_deviatoric_walker.
(** an accepted update makes a step *)
Theorem C76_update_viscoplastic : forall lsolve inv prm Ce w limit skip next past st st' A E, (1 <= miter prm)%Z ->
  update_step lsolve inv prm (GenIntegrator Ce (TVP Ce (WalkerFlow w) limit) skip) next past st = Some (st', A, E) ->
  eps <= ld_t next - ld_t past -> 0 < w_pre w (ps_h st') (ld_T next) ->
  let M := GenIntegrator Ce (TVP Ce (WalkerFlow w) limit) skip in
  exists r, within_tolerance prm (sb_np M) r (gi_R (TVP Ce (WalkerFlow w) limit) next past st (sb_init M next past st)) /\
    walker_step w (ld_T next) (ps_s st') (ps_h st) (ps_h st')
      ((ld_t next - ld_t past) * w_y w (ps_s st') (ps_h st') (ld_T next)) (ld_t next - ld_t past) (fun j => r (6 + j)%nat).
Proof. exact tvp_walker_step. Qed.
Print Assumptions C76_update_viscoplastic.
(** also with the rate switch *)
Theorem C76_update_switch : forall lsolve inv prm Ce w lam eps0 skip next past st st' A E, (1 <= miter prm)%Z ->
  update_step lsolve inv prm (GenIntegrator Ce (WKSwitch Ce (WalkerFlow w) lam eps0) skip) next past st = Some (st', A, E) ->
  eps <= ld_t next - ld_t past -> 0 < w_pre w (ps_h st') (ld_T next) -> 0 < eps0 -> 0 <= lam (ld_T next) <= 1 ->
  let M := GenIntegrator Ce (WKSwitch Ce (WalkerFlow w) lam eps0) skip in
  let edot := fun i => (ld_e next i - ld_e past i) / (ld_t next - ld_t past) in
  let q := (ld_t next - ld_t past) * wk_kappa lam eps0 edot (ld_T next) in
  exists r, within_tolerance prm (sb_np M) r (gi_R (WKSwitch Ce (WalkerFlow w) lam eps0) next past st (sb_init M next past st)) /\
    walker_step w (ld_T next) (ps_s st') (ps_h st) (ps_h st') (q * w_y w (ps_s st') (ps_h st') (ld_T next)) q (fun j => r (6 + j)%nat).
Proof. exact wk_walker_step. Qed.
Print Assumptions C76_update_switch.
(** bounds of the variables over any number of steps *)
Theorem C76_drag_bounds : forall w (Ts : R -> Prop) tol d0 d1 d2 Dxi D0 S scale Dm, w_D w = WalkerDrag d0 d1 d2 Dxi D0 S scale -> 0 <= tol ->
  (forall T, Ts T -> 0 <= d0 T /\ 0 <= d1 T /\ 0 < Dxi T <= Dm /\ 0 <= scale T /\ forall a, 0 <= so_phi S a T) ->
  forall N a a', walker_run w Ts tol N a a' -> D0 <= a 2%nat <= D0 + Dm -> D0 - INR N * tol <= a' 2%nat <= D0 + Dm + INR N * tol.
Proof. exact drag_run. Qed.
Print Assumptions C76_drag_bounds.
Theorem C76_isotropic_bounds : forall w (Ts : R -> Prop) tol r0 Rinf R0 r1 r2 lo hi, w_R w = WalkerIso r0 Rinf R0 r1 r2 -> 0 <= tol ->
  (forall T, Ts T -> 0 <= r0 T /\ 0 <= r1 T /\ lo <= Rinf T <= hi /\ lo <= R0 T <= hi) ->
  forall N a a', walker_run w Ts tol N a a' -> lo <= a 1%nat <= hi -> lo - INR N * tol <= a' 1%nat <= hi + INR N * tol.
Proof. exact iso_run. Qed.
Print Assumptions C76_isotropic_bounds.
Theorem C76_plastic_strain_grows : forall w (Ts : R -> Prop) tol, 0 <= tol -> forall N a a', walker_run w Ts tol N a a' -> a 0%nat - INR N * tol <= a' 0%nat.
Proof. exact alpha_run. Qed.
Print Assumptions C76_plastic_strain_grows.
Theorem C76_backstress_bounds : forall w (Ts : R -> Prop) tol i M, (i < w_nX w)%nat -> 0 <= tol -> kin_bounded Ts M (w_X w i) ->
  forall N a a', walker_run w Ts tol N a a' -> norm2 6 (wX a i) <= M -> norm2 6 (wX a' i) <= M + INR N * tol.
Proof. exact kin_run. Qed.
Print Assumptions C76_backstress_bounds.
Theorem C76_bounded_frederick_armstrong : forall (Ts : R -> Prop) c g M, (forall T, Ts T -> 0 <= c T /\ 0 <= g T /\ sqrt (2 / 3) * c T <= M * g T) -> kin_bounded Ts M (FAKin c g).
Proof. exact fa_bounded. Qed.
Print Assumptions C76_bounded_frederick_armstrong.
Theorem C76_bounded_walker : forall (Ts : R -> Prop) p M, (forall T, Ts T -> 0 <= k_c0 p T /\ 0 <= k_c1 p T /\ 0 <= k_b0 p T < 1 /\ 0 < k_l p T /\ 0 <= k_l1 p T <= 1 /\ 0 <= k_l0 p T /\
     0 <= k_x0 p T /\ 0 <= k_scale p T /\ (forall a, 0 <= so_phi (k_soft p) a T) /\
     sqrt (2 / 3) * Rmax (k_l p T) (k_l1 p T + 1) <= M * (1 - k_b0 p T)) ->
  kin_bounded Ts M (WalkerKin p).
Proof. exact wkin_bounded. Qed.
Print Assumptions C76_bounded_walker.
(** every variable is found at its place *)
Theorem C76_variables : forall ts nX h d, (forall i j, ts i = ts j -> i = j) -> w_cached ts nX = HOk h -> length d = length (hdata h) ->
  length (hdata h) = (3 + 6 * nX)%nat /\
  hlookup TScalar "alpha" (gather h d) = HOk 0%nat /\ hlookup TScalar "R" (gather h d) = HOk 1%nat /\
  hlookup TScalar "D" (gather h d) = HOk 2%nat /\
  (forall i, (i < nX)%nat -> hlookup TSymmetric ("X" ++ ts i) (gather h d) = HOk (3 + 6 * i)%nat).
Proof. exact w_lookup_ok. Qed.
Print Assumptions C76_variables.
Theorem C76_variables_exist : forall ts nX, (forall i j, ts i = ts j -> i = j) -> exists h, w_cached ts nX = HOk h.
Proof. exact w_cached_ok. Qed.
Print Assumptions C76_variables_exist.
(** inside a superposition none is *)
Theorem C76_superposition_refuted : forall ts nX h d j t n, w_cached ts nX = HOk h -> length d = length (hdata h) ->
  hlookup t (sup_prefix ts j ++ n) (gather h d) = HErr ENotExists.
Proof. exact w_lookup_prefixed. Qed.
Print Assumptions C76_superposition_refuted.
Theorem C76_superposition_test_refuted : forall ts h d j t n, tf_cached = HOk h -> length d = length (hdata h) ->
  hlookup t (sup_prefix ts j ++ n) (gather h d) = HErr ENotExists.
Proof. exact tf_lookup_prefixed. Qed.
Print Assumptions C76_superposition_test_refuted.
(** one step of the shipped model, and a bounded backstress *)
Example C76_case : walker_run ex_walker (fun _ => True) 0 1 (fun j => ex_a j - pv (vf_h (WalkerFlow ex_walker)) ex_s ex_a 0 j) ex_a.
Proof. exact ex_run. Qed.
Example C76_bounded_case : kin_bounded (fun _ => True) 3 (WalkerKin ex_kin).
Proof. exact ex_kin_bounded. Qed.
