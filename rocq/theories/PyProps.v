(** The Python solvers, the uniaxial model, the driver and the standard tests *)
From Verif Require Import Base Diff SolverModel SubstepModel CreepModel.
From Verif Require Import NlModel NlSpec NlProofs UniModel UniSpec UniProofs DrvModel DrvSpec DrvProofs DrvDeriv TestsModel TestsSpec TestsProofs TestsElastic TestsMore TestsCreep PyEx TestsEx.
From Coq Require Import String List Arith ZArith Lia Lra.
Import ListNotations.
Open Scope R_scope.

(** ** C77 *)
(** what a solver returns satisfies one of the tolerances at its own residual, after at most miter iterations *)
Theorem C77_result : forall {X D V} (s : nsys X D V) dir len rt at_ miter x d i, no_nan s -> py_run s dir len rt at_ miter true = Ret (x, d, i) ->
  exists d0, sys_RJ s (sys_init s) = Some d0 /\ sys_RJ s x = Some d /\ py_converged rt at_ (sys_norm s d) (sys_norm s d0) /\ (0 <= i <= Z.max 0 miter)%Z.
Proof. exact @run_converged. Qed.
Print Assumptions C77_result.
(** and is reached by the iteration it claims to be *)
Theorem C77_iterates : forall {X D V} (s : nsys X D V) dir len rt at_ miter fail x d i, py_run s dir len rt at_ miter fail = Ret (x, d, i) ->
  exists d0 k, sys_RJ s (sys_init s) = Some d0 /\ i = Z.of_nat k /\ py_iterate s (dir d0) len rt at_ d0 k x d /\ sys_RJ s x = Some d /\
    (i <= Z.max 0 miter + (if fail then 0 else 1))%Z /\
    ((fail = true \/ (i <= miter)%Z) -> py_converged rt at_ (sys_norm s d) (sys_norm s d0) \/ sys_norm s d = None \/ sys_norm s d0 = None).
Proof. exact @run_result. Qed.
Print Assumptions C77_iterates.
(** it stops *)
Theorem C77_stops : forall {X D V} (s : nsys X D V) dir len rt at_ miter fail, (forall x d v, len x d v <> Raise Spins) ->
  py_run s dir len rt at_ miter fail <> Raise Spins.
Proof. exact @run_stops. Qed.
Print Assumptions C77_stops.
(** a linear system takes one iteration *)
Theorem C77_linear : forall n (A : mat) (b x0 : vec) (RJ : vec -> option (vec * mat)) solve rt at_ miter lin, exact_solve n solve -> 0 <= rt -> 0 <= at_ -> (1 <= miter)%Z ->
  (forall x, exists d, RJ x = Some d /\ veq n (fst d) (fun i => mv n A x i - b i) /\ forall i j, (i < n)%nat -> (j < n)%nat -> snd d i j = A i j) ->
  (forall d, RJ x0 = Some d -> exists v, solve (snd d) (fst d) = Some v) ->
  exists x d i, py_newton (vec_sys n x0 RJ solve) lin rt at_ miter LNone true = Ret (x, d, i) /\ (0 <= i <= 1)%Z /\
    (i = 1%Z -> veq n (mv n A x) b).
Proof. exact @linear_once. Qed.
Print Assumptions C77_linear.
(** the line search takes the first acceptable length *)
Theorem C77_line_search : forall {X D V} (s : nsys X D V) lin tau c x d v fuel alpha, backtrack fuel s lin tau c x d v 1 = Ret alpha -> first_acceptable s lin tau c x d v alpha.
Proof. exact @backtrack_first. Qed.
Print Assumptions C77_line_search.
(** which reduces the residual *)
Theorem C77_line_search_reduces : forall n init RJ solve tau c x d v fuel alpha, exact_solve n solve -> solve (snd d) (fst d) = Some v -> 0 < tau -> tau <= 1 -> 0 < c -> c < 1 ->
  0 < norm2 n (fst d) ->
  backtrack fuel (vec_sys n init RJ solve) (vlin n) tau c x d v 1 = Ret alpha ->
  0 < alpha <= 1 /\ exists d', RJ (fun j => x j - alpha * v j) = Some d' /\ norm2 n (fst d') <= (1 - c * alpha) * norm2 n (fst d) /\ norm2 n (fst d') < norm2 n (fst d).
Proof. exact @backtrack_reduces. Qed.
Print Assumptions C77_line_search_reduces.
(** and exists wherever the Jacobian is the derivative *)
Theorem C77_line_search_ends : forall n init (Rf : vec -> vec) (Jf : vec -> mat) solve tau c x v, exact_solve n solve -> solve (Jf x) (Rf x) = Some v -> 0 < tau < 1 -> 0 < c < 1 ->
  0 < norm2 n (Rf x) ->
  (forall i, (i < n)%nat -> is_derive (fun a => Rf (fun j => x j - a * v j) i) 0 (- mv n (Jf x) v i)) ->
  (forall i, (i < n)%nat -> Rf (fun j => x j - 0 * v j) i = Rf x i) ->
  let s := vec_sys n init (fun y => Some (Rf y, Jf y)) solve in
  exists N, forall fuel, (N <= fuel)%nat -> exists alpha, backtrack fuel s (vlin n) tau c x (Rf x, Jf x) v 1 = Ret alpha.
Proof. exact @backtrack_ends. Qed.
Print Assumptions C77_line_search_ends.
(** so with line search the residual never grows *)
Theorem C77_decrease : forall n init RJ solve tau c rt at_ bt d0, exact_solve n solve -> 0 < tau <= 1 -> 0 < c < 1 -> 0 <= at_ ->
  let s := vec_sys n init RJ solve in forall k x d, py_iterate s (sys_solve s) (py_len s (vlin n) (LBacktracking bt tau c)) rt at_ d0 k x d ->
  norm2 n (fst d) <= norm2 n (fst d0) /\ ((0 < k)%nat -> norm2 n (fst d) < norm2 n (fst d0)).
Proof. exact @newton_decreases. Qed.
Print Assumptions C77_decrease.
(** a residual that is not a number counts as converged *)
Theorem C77_nan_refuted : forall {X D V} (s : nsys X D V) dir len rt at_ miter fail d0, sys_RJ s (sys_init s) = Some d0 -> sys_norm s d0 = None ->
  py_run s dir len rt at_ miter fail = Ret (sys_init s, d0, 0%Z).
Proof. exact @nan_start. Qed.
Print Assumptions C77_nan_refuted.
(** also in a later iteration *)
Theorem C77_nan_later_refuted : forall {X D V} (s : nsys X D V) dir len rt at_ miter fail fuel nR0 i x d v f d', sys_norm s d <> None ->
  py_goes_on rt at_ (sys_norm s d) nR0 = true -> dir d = Some v -> len x d v = Ret f -> sys_RJ s (sys_move s x f v) = Some d' -> sys_norm s d' = None ->
  (i < miter)%Z -> py_loop (S (S fuel)) s dir len rt at_ miter fail nR0 i x d = Ret (sys_move s x f v, d', (i + 1)%Z).
Proof. exact @nan_later. Qed.
Print Assumptions C77_nan_later_refuted.
(** convergence in the last allowed iteration is reported as a failure *)
Theorem C77_late_convergence_refuted : exists RJ : R -> option (R * R), exists x1, RJ x1 = Some (0, 1) /\
  sys_move (scalar_sys 1 RJ) 1 1 1 = x1 /\ py_scalar (scalar_sys 1 RJ) (1 / 2) (1 / 2) 0 None = Raise MaximumIterations.
Proof. exact @late_convergence. Qed.
Print Assumptions C77_late_convergence_refuted.
Example C77_case : exists x d i, py_newton (vec_sys 6 (fun _ => 0) (fun x => Some (fun i => mv 6 delta x i - 1, delta)) (the_solve 6)) (vlin 6) 0 0 1 LNone true = Ret (x, d, i) /\ no_nan (vec_sys 6 (fun _ => 0) (fun x => Some (fun i => mv 6 delta x i - 1, delta)) (the_solve 6)).
Proof.
  destruct (linear_once 6 delta (fun _ => 1) (fun _ => 0) (fun x => Some (fun i => mv 6 delta x i - 1, delta)) (the_solve 6) 0 0 1 (vlin 6)) as (x & d & i & E & _); try lra; try lia.
  - intros J r v E. apply (the_solve_ok _ _ _ _ E).
  - intros x. eexists. split; [reflexivity|]. split; [intros i Hi; reflexivity|intros; reflexivity].
  - intros d E. injection E as <-. apply the_solve_total. intros w H i Hi. rewrite <- (mvd w i Hi). apply H, Hi.
  - exists x, d, i. split; [exact E|]. intros y b _. eexists. reflexivity.
Qed.

(** ** C78 *)
(** the answer is that of the three dimensional model at a strain with the given axial component, where the other stresses are within the tolerances *)
Theorem C78_uniaxial : forall solve M rt at_ miter e1 e0 T1 T0 t1 t0 s0 h0 u0 p0 q, uni_update solve M rt at_ miter e1 e0 T1 T0 t1 t0 s0 h0 u0 p0 = Ret q ->
  exists E E0 r g rg, strain_of e1 (ur_h q) E /\ strain_of e0 h0 E0 /\ strain_of e1 h0 g /\
    upd M E E0 T1 T0 t1 t0 (ss2sv s0) (fun i => h0 (5 + i)%nat) u0 p0 = Some r /\
    upd M g E0 T1 T0 t1 t0 (ss2sv s0) (fun i => h0 (5 + i)%nat) u0 p0 = Some rg /\
    (transverse (pr_s r) <= rt * transverse (pr_s rg) \/ transverse (pr_s r) <= at_) /\
    ur_s q = pr_s r 0%nat /\ (forall i, ur_h q (5 + i)%nat = pr_h r i) /\ ur_u q = pr_u r /\ ur_p q = pr_p r.
Proof. exact @uni_sound. Qed.
Print Assumptions C78_uniaxial.
(** the tangent is the slope of the axial stress while the others do not change *)
Theorem C78_tangent : forall solve M rt at_ miter e1 e0 T1 T0 t1 t0 s0 h0 u0 p0 q, solve_ok solve ->
  uni_update solve M rt at_ miter e1 e0 T1 T0 t1 t0 s0 h0 u0 p0 = Ret q ->
  exists E E0, strain_of e1 (ur_h q) E /\ strain_of e0 h0 E0 /\
  let f := fun e => upd M e E0 T1 T0 t1 t0 (ss2sv s0) (fun i => h0 (5 + i)%nat) u0 p0 in
  (exact_at f E -> forall (y : R -> vec) (r : R -> pres) w v, y w = E -> path 6 y w v -> locally w (fun z => f (y z) = Some (r z)) ->
    (forall i, (1 <= i < 6)%nat -> is_derive (fun z => pr_s (r z) i) w 0) ->
    is_derive (fun z => pr_s (r z) 0%nat) w (ur_A q * v 0%nat)).
Proof. exact @uni_tangent. Qed.
Print Assumptions C78_tangent.
(** an elastic material answers with its compliance *)
Theorem C78_elastic : forall solve M rt at_ miter e1 e0 T1 T0 t1 t0 s0 h0 u0 p0 q C S, solve_ok solve -> elastic_base C (pm_base M) ->
  (forall i j, (i < 6)%nat -> (j < 6)%nat -> mm 6 S C i j = delta i j) -> S 0%nat 0%nat <> 0 ->
  uni_update solve M rt at_ miter e1 e0 T1 T0 t1 t0 s0 h0 u0 p0 = Ret q ->
  ur_A q = / S 0%nat 0%nat /\
  exists s, ur_s q = s 0%nat /\ e1 = S 0%nat 0%nat * ur_s q + dot 5 (A12 S) (vtl s) /\
    (transverse s <= rt * Rabs (sqrt (dot 5 (fun i => vtl (mv 6 C (es2ev e1 h0)) i) (fun i => vtl (mv 6 C (es2ev e1 h0)) i))) \/ transverse s <= at_).
Proof. exact @uni_elastic. Qed.
Print Assumptions C78_elastic.
(** and always answers *)
Theorem C78_elastic_works : forall solve M rt at_ miter e1 e0 T1 T0 t1 t0 s0 h0 u0 p0 C S, solve_ok solve -> solve_total solve -> elastic_base C (pm_base M) ->
  (forall i j, (i < 6)%nat -> (j < 6)%nat -> mm 6 S C i j = delta i j) -> S 0%nat 0%nat <> 0 -> 0 <= rt -> 0 <= at_ -> (1 <= miter)%Z ->
  exists q, uni_update solve M rt at_ miter e1 e0 T1 T0 t1 t0 s0 h0 u0 p0 = Ret q.
Proof. exact @uni_elastic_works. Qed.
Print Assumptions C78_elastic_works.
(** over any history *)
Theorem C78_history : forall solve M rt at_ miter q, uni_reach solve M rt at_ miter q ->
  exists E s, strain_of (uu_e q) (uu_h q) E /\ uu_s q = s 0%nat /\ uniaxial_history M rt at_ E (uu_T q) (uu_t q) s (fun i => uu_h q (5 + i)%nat) (uu_u q) (uu_p q).
Proof. exact @uni_history. Qed.
Print Assumptions C78_history.
(** the elastic strain, of models that do not look at their store *)
Theorem C78_elastic_strain : forall M s T h, (forall a b, pm_estrain M (ss2sv s) T a = pm_estrain M (ss2sv s) T b) -> uni_estrain M s T h = pm_estrain M (ss2sv s) T (fun i => h (5 + i)%nat) 0%nat.
Proof. exact @uni_estrain_ok. Qed.
Print Assumptions C78_elastic_strain.
(** others are handed the wrong part of it *)
Theorem C78_elastic_strain_refuted : exists M, forall s T, let own := fun i => uni_init M (5 + i)%nat in
  own = ba_init (pm_base M) /\ pm_estrain M (ss2sv s) T own 0%nat = s /\ uni_estrain M s T (uni_init M) = 0.
Proof. exact @uni_estrain_wrong. Qed.
Print Assumptions C78_elastic_strain_refuted.
Example C78_case : exists q, uni_update the_solve unit_model 0 0 1 1 0 0 0 1 0 0 (fun _ => 0) 0 0 = Ret q /\ ur_A q = 1.
Proof.
  assert (D1 : delta 0%nat 0%nat = 1) by reflexivity.
  destruct (uni_elastic_works the_solve unit_model 0 0 1 1 0 0 0 1 0 0 (fun _ => 0) 0 0 delta delta the_solve_ok the_solve_total unit_elastic delta_inv) as [q E]; try lra; try lia.
  exists q. split; [exact E|]. destruct (uni_elastic the_solve unit_model 0 0 1 1 0 0 0 1 0 0 (fun _ => 0) 0 0 q delta delta the_solve_ok unit_elastic delta_inv) as [A _]; [rewrite D1; lra|exact E|]. rewrite A, D1. apply Rinv_1.
Qed.

(** ** C79 *)
(** whatever calls are made, failing or not, the nine lists of a driver are one history of the model *)
Theorem C79_history : forall M P T0 cs, good (dp_nts P) M T0 (drive M P (drv_init M T0) cs).
Proof. exact @drive_history. Qed.
Print Assumptions C79_history.
(** every successful call adds one point and keeps the earlier ones *)
Theorem C79_appends : forall M P d c d', do_call M P d c = Ret d' -> exists e m th s h T t u p,
  d' = {| dv_strain := e :: dv_strain d; dv_mech := m :: dv_mech d; dv_therm := th :: dv_therm d; dv_stress := s :: dv_stress d; dv_stored := h :: dv_stored d;
          dv_T := T :: dv_T d; dv_t := t :: dv_t d; dv_u := u :: dv_u d; dv_p := p :: dv_p d |}.
Proof. exact @call_appends. Qed.
Print Assumptions C79_appends.
Theorem C79_strain_step : forall M P d e t1 T1 d', strain_step M P d e t1 T1 = Ret d' -> top (dv_strain d') = e /\ topr (dv_t d') = t1 /\ topr (dv_T d') = T1 /\
  exists r, dupd M P d e t1 T1 = Some r /\ top (dv_stress d') = pr_s r.
Proof. exact @strain_step_sound. Qed.
Print Assumptions C79_strain_step.
(** the stress is the given one within the tolerances *)
Theorem C79_stress_step : forall M P d s1 t1 T1 d', stress_step M P d s1 t1 T1 = Ret d' ->
  topr (dv_t d') = t1 /\ topr (dv_T d') = T1 /\ exists g rg, In g (stress_guesses d) /\ dupd M P d g t1 T1 = Some rg /\
  within P (norm2 6 (fun i => top (dv_stress d') i - s1 i)) (norm2 6 (fun i => pr_s rg i - s1 i)).
Proof. exact @stress_step_sound. Qed.
Print Assumptions C79_stress_step.
(** the stress moves along the direction, the strain along it at the given rate, within the tolerances *)
Theorem C79_rate_step : forall M P d sdir erate t1 T1 ge ga d' ei a, t1 <> topr (dv_t d) ->
  erate_step M P d sdir erate t1 T1 ge ga = Ret (d', ei, a) ->
  let dt := t1 - topr (dv_t d) in
  (forall i, top (dv_strain d') i = top (dv_strain d) i + ei i) /\ topr (dv_t d') = t1 /\ topr (dv_T d') = T1 /\
  exists e r0, within P e r0 /\
    norm2 6 (fun i => top (dv_stress d') i - top (dv_stress d) i - a * unitv sdir i) <= e /\
    Rabs (dot 6 (fun i => top (dv_strain d') i - top (dv_strain d) i) (unitv sdir) / dt - erate) <= e.
Proof. exact @erate_step_sound. Qed.
Print Assumptions C79_rate_step.
Theorem C79_rate_step_time : forall M P d sdir erate einc T1 ge ga d' ei a, erate_einc_step M P d sdir erate einc T1 ge ga = Ret (d', ei, a) ->
  erate <> 0 /\ topr (dv_t d') = topr (dv_t d) + einc / erate.
Proof. exact @erate_einc_time. Qed.
Print Assumptions C79_rate_step_time.
Theorem C79_rate_step_increment : forall M P d sdir erate einc T1 ge ga d' ei a, einc <> 0 ->
  erate_einc_step M P d sdir erate einc T1 ge ga = Ret (d', ei, a) ->
  exists e r0, within P e r0 /\ norm2 6 (fun i => top (dv_stress d') i - top (dv_stress d) i - a * unitv sdir i) <= e /\
    Rabs (dot 6 (fun i => top (dv_strain d') i - top (dv_strain d) i) (unitv sdir) - einc) <= e * Rabs (einc / erate).
Proof. exact @erate_einc_sound. Qed.
Print Assumptions C79_rate_step_increment.
Theorem C79_stress_rate_step : forall M P d sdir srate sinc T1 d', allzero sdir = false -> srate_sinc_step M P d sdir srate sinc T1 = Ret d' ->
  topr (dv_t d') = topr (dv_t d) + srate_dt d sdir srate sinc /\ exists e r0, within P e r0 /\
  norm2 6 (fun i => top (dv_stress d') i - (top (dv_stress d) i + sinc * unitv sdir i)) <= e.
Proof. exact @srate_sound. Qed.
Print Assumptions C79_stress_rate_step.
(** the time of a stress increment, for directions of length one: missing is every other direction *)
Theorem C79_stress_rate_time_partial : forall d sdir srate sinc, allzero sdir = false -> 0 < norm2 6 sdir -> / 10 ^ 8 < Rabs srate ->
  srate_dt d sdir srate sinc = norm2 6 sdir * (Rabs sinc / Rabs srate).
Proof. exact @srate_time. Qed.
Print Assumptions C79_stress_rate_time_partial.
(** a component can be held, with follow up *)
Theorem C79_hold_step : forall M P d i t1 T1 q E d', (i < 6)%nat -> strain_hold_step M P d i t1 T1 q E = Ret d' ->
  topr (dv_t d') = t1 /\ topr (dv_T d') = T1 /\ exists e r0, within P e r0 /\
  Rabs (top (dv_strain d') i - top (dv_strain d) i + (q - 1) * ((top (dv_stress d') i - top (dv_stress d) i) / E)) <= e /\
  (forall j, (j < 6)%nat -> j <> i -> Rabs (top (dv_stress d') j - top (dv_stress d) j) <= e).
Proof. exact @hold_sound. Qed.
Print Assumptions C79_hold_step.
(** the first guess that works is taken *)
Theorem C79_guess : forall P n mk g gs x d i, py_newton (mk g) (vlin n) (dp_rt P) (dp_at P) (dp_miter P) LNone true = Ret (x, d, i) -> solve_try P n mk (g :: gs) = Ret x.
Proof. exact @try_first. Qed.
Print Assumptions C79_guess.
(** failure means that no guess worked, with and without line search *)
Theorem C79_failure : forall P n mk, forall gs, solve_try P n mk gs = Raise MaximumIterations -> forall g, In g gs ->
  ~ is_ret (py_newton (mk g) (vlin n) (dp_rt P) (dp_at P) (dp_miter P) LNone true) /\
  ~ is_ret (py_newton (mk g) (vlin n) (dp_rt P) (dp_at P) (dp_miter P) (LBacktracking (dp_bt P) (1 / 2) (1 / 10000)) true).
Proof. exact @try_fails. Qed.
Print Assumptions C79_failure.
(** the Jacobians are those of the residuals *)
Theorem C79_stress_jacobian : forall M P d s1 t1 T1 g e, exact_call M P d t1 T1 e -> exact_RJ 6 (sys_RJ (stress_sys M P d s1 t1 T1 g)) e.
Proof. exact @stress_exact. Qed.
Print Assumptions C79_stress_jacobian.
Theorem C79_rate_jacobian : forall M P d sd erate t1 T1 g x, exact_call M P d t1 T1 (fun i => top (dv_strain d) i + vtl x i) -> exact_RJ 7 (sys_RJ (erate_sys M P d sd erate t1 T1 g)) x.
Proof. exact @erate_exact. Qed.
Print Assumptions C79_rate_jacobian.
(** for the first component only *)
Theorem C79_hold_jacobian_partial : forall M P d t1 T1 q E g e, exact_call M P d t1 T1 e -> exact_RJ 6 (sys_RJ (hold_sys M P d 0 t1 T1 q E g)) e.
Proof. exact @hold_exact0. Qed.
Print Assumptions C79_hold_jacobian_partial.
(** elastic materials never fail *)
Theorem C79_elastic_stress : forall M P d s1 t1 T1 C S, solve_ok (dp_solve P) -> solve_total (dp_solve P) -> elastic_base C (pm_base M) ->
  (forall i j, (i < 6)%nat -> (j < 6)%nat -> mm 6 S C i j = delta i j) -> 0 <= dp_rt P -> 0 <= dp_at P -> (1 <= dp_miter P)%Z ->
  exists d', stress_step M P d s1 t1 T1 = Ret d'.
Proof. exact @stress_elastic_works. Qed.
Print Assumptions C79_elastic_stress.
Theorem C79_elastic_rate : forall M P d sdir erate t1 T1 ge ga C S, t1 <> topr (dv_t d) -> solve_ok (dp_solve P) -> solve_total (dp_solve P) -> elastic_base C (pm_base M) ->
  (forall i j, (i < 6)%nat -> (j < 6)%nat -> mm 6 S C i j = delta i j) -> dot 6 (unitv sdir) (mv 6 S (unitv sdir)) <> 0 -> 0 <= dp_rt P -> 0 <= dp_at P -> (1 <= dp_miter P)%Z ->
  exists d' ei a, erate_step M P d sdir erate t1 T1 ge ga = Ret (d', ei, a).
Proof. exact @erate_elastic_works. Qed.
Print Assumptions C79_elastic_rate.
(** holding another component than the first fails though there is a solution *)
Theorem C79_hold_refuted : forall P, solve_ok (dp_solve P) -> dp_nts P = false -> 0 <= dp_rt P < 1 -> dp_at P < 1 ->
  let d := drv_init unit_model 0 in
  strain_hold_step unit_model P d 1 1 1 1 (-1) = Raise MaximumIterations /\
  exists e r, dupd unit_model P d e 1 1 = Some r /\ e 1%nat = top (dv_strain d) 1%nat /\ forall j, (j < 6)%nat -> j <> 1%nat -> pr_s r j = top (dv_stress d) j.
Proof. exact @hold_fails. Qed.
Print Assumptions C79_hold_refuted.
(** for a direction of length two a stress increment takes twice the time *)
Theorem C79_direction_length_refuted : exists sdir d, forall srate sinc, / 10 ^ 8 < Rabs srate -> srate_dt d sdir srate sinc = 2 * (Rabs sinc / Rabs srate).
Proof. exact @srate_length. Qed.
Print Assumptions C79_direction_length_refuted.
(** slow stress rates take no time *)
Theorem C79_slow_loading_refuted : forall d sdir srate sinc, Rabs srate <= / 10 ^ 8 -> srate_dt d sdir srate sinc = 0.
Proof. exact @srate_slow. Qed.
Print Assumptions C79_slow_loading_refuted.
(** a step over no time returns the guess *)
Theorem C79_no_time_refuted : forall P erate, exists sdir d', norm2 6 sdir = 1 /\
  erate_step unit_model P (drv_init unit_model 0) sdir erate 0 0 None None = Ret (d', fun i => unitv sdir i / 10000, 1) /\
  dot 6 (top (dv_strain d')) (unitv sdir) = 1 / 10000.
Proof. exact @no_time_case. Qed.
Print Assumptions C79_no_time_refuted.
Example C79_case : exists d, stress_step unit_model PT (drv_init unit_model 0) ax1 1 1 = Ret d /\ good (dp_nts PT) unit_model 0 (drv_init unit_model 0).
Proof.
  destruct PT_exact as (A & B & C & D & E).
  destruct (stress_elastic_works unit_model PT (drv_init unit_model 0) ax1 1 1 delta delta D E unit_elastic delta_inv) as [d H]; try (cbn; lra); try (cbn; lia). exists d. split; [exact H|]. apply good_init.
Qed.
Example C79_rate_case : exists d ei a, erate_step unit_model PT (drv_init unit_model 0) ax1 2 1 1 None None = Ret (d, ei, a).
Proof. apply unit_step; [apply PT_exact|rewrite norm_ax1; lra|cbn; lra]. Qed.

(** ** C80 *)
(** n steps at a strain rate: time, strain and stress direction *)
Theorem C80_ramp : forall M P sdir pull erate einc T dmg n st st', einc <> 0 -> synced sdir st -> ramp M P sdir pull erate einc T dmg n st = (st', None) ->
  synced sdir st' /\ length (ts_e st') = (n + length (ts_e st))%nat /\
  exists e, errors P n e /\ moved (unitv pull) (INR n * einc) (INR n * (einc / erate)) e (e * Rabs (einc / erate)) (ts_d st) (ts_d st').
Proof. exact @ramp_moves. Qed.
Print Assumptions C80_ramp.
(** n steps at constant strain *)
Theorem C80_hold : forall M P sdir dt T dmg n st st', dt <> 0 -> synced sdir st -> hold M P sdir dt T dmg n st = (st', None) ->
  synced sdir st' /\ length (ts_e st') = (n + length (ts_e st))%nat /\
  exists e, errors P n e /\ moved (unitv sdir) 0 (INR n * dt) e (e * Rabs dt) (ts_d st) (ts_d st').
Proof. exact @holds_moves. Qed.
Print Assumptions C80_hold.
(** every recorded entry *)
Theorem C80_ramp_entries : forall M P sdir erate einc T dmg, einc <> 0 -> 0 < norm2 6 sdir -> forall n st st', synced sdir st -> ramp M P sdir sdir erate einc T dmg n st = (st', None) ->
  ramp_entries P sdir erate einc n st st'.
Proof. exact @ramp_trace. Qed.
Print Assumptions C80_ramp_entries.
(** the uniaxial test ends at the last step, at too much damage, or at a step that fails *)
Theorem C80_uniaxial_test : forall M P sdir erate T emax dtol check nsteps st, emax <> 0 -> 0 < norm2 6 sdir -> (0 < nsteps)%nat ->
  uniaxial_test M P sdir erate T emax dtol check nsteps = Ret st ->
  exists k, (k <= nsteps)%nat /\ ramp_entries P sdir erate (emax / INR nsteps) k (tst0 M T) st /\
    (k = nsteps \/ dtol < pm_damage M (top (dv_stored (ts_d st))) \/ exists x, erate_einc_step M P (ts_d st) sdir erate (emax / INR nsteps) T (ts_ge st) (ts_ga st) = Raise x).
Proof. exact @uniaxial_sound. Qed.
Print Assumptions C80_uniaxial_test.
(** with a direction of length two it reports twice the strain *)
Theorem C80_uniaxial_direction_refuted : forall P, exactP P -> exists st, uniaxial_test unit_model P (fun i => 2 * ax1 i) 1 0 1 1 false 1 = Ret st /\ ts_e st = [2; 0].
Proof. exact @uniaxial_scaled. Qed.
Print Assumptions C80_uniaxial_direction_refuted.
(** one strain controlled cycle: down by the amplitude and up again, whatever the holds *)
Theorem C80_cycle : forall M P c st si st', cycle_ok c -> synced (cp_sdir c) st -> one_cycle M P c st = (si, (st', None)) ->
  synced (cp_sdir c) st' /\
  (exists ls s0, ts_s st' = ls ++ s0 /\ length s0 = si /\ ls <> [] /\ exists h, s0 = h ++ ts_s st) /\
  exists dr n1 n2 e1 e2 f1 f2, errors P n1 e1 /\ errors P n2 e2 /\
    moved (unitv (cp_sdir c)) (- ampl c) (cp_hold0 c + ampl c / cp_erate c) e1 f1 (ts_d st) dr /\
    moved (unitv (cp_sdir c)) (ampl c) (cp_hold1 c + ampl c / cp_erate c) e2 f2 dr (ts_d st') /\
    f1 <= e1 * (cp_hold0 c + Rabs (ampl c / cp_erate c)) /\ f2 <= e2 * (cp_hold1 c + Rabs (ampl c / cp_erate c)).
Proof. exact @cycle_moves. Qed.
Print Assumptions C80_cycle.
(** any number of cycles: the test returns to the maximum strain, the summaries belong to the recorded stresses *)
Theorem C80_cyclic_test : forall M P c ncycles st cy, cycle_ok c -> cp_emax c <> 0 -> strain_cyclic M P c ncycles = Ret (st, cy) ->
  (length cy <= ncycles)%nat /\ map cy_n cy = rev (seq 0 (length cy)) /\ Forall (summary (ts_s st)) cy /\
  (length cy = ncycles -> exists N e, errors P N e /\
    topr (ts_t st) = cp_emax c / cp_erate c + INR ncycles * period c /\
    Rabs (topr (ts_e st) - norm2 6 (cp_sdir c) * cp_emax c) <= norm2 6 (cp_sdir c) * (e * (Rabs (cp_emax c / cp_erate c) + cp_hold0 c + cp_hold1 c + 2 * Rabs (ampl c / cp_erate c)))).
Proof. exact @cyclic_sound. Qed.
Print Assumptions C80_cyclic_test.
(** a test that starts in compression runs backwards in time *)
Theorem C80_cyclic_compression_refuted : forall P, exactP P -> exists st, strain_cyclic unit_model P (cyc_case (-1) (-1)) 0 = Ret (st, []) /\ topr (ts_t st) = -1.
Proof. exact @cyclic_backwards. Qed.
Print Assumptions C80_cyclic_compression_refuted.
(** a minimum above the maximum is never reached *)
Theorem C80_cyclic_ratio_refuted : forall P, exactP P -> exists st k, strain_cyclic unit_model P (cyc_case 1 2) 1 = Ret (st, [k]) /\ ts_e st = [1; 0; 1; 0].
Proof. exact @cyclic_wrong_way. Qed.
Print Assumptions C80_cyclic_ratio_refuted.
(** creep: the stress is reached and held, times and strains of the hold *)
Theorem C80_creep : forall M P sdir smax srate h T elimit dmg nsteps nup logs r, allzero sdir = false -> (0 < nup)%nat ->
  creep M P sdir smax srate h T elimit dmg nsteps nup logs = Ret r ->
  exists le t0 (st0 : tst), ts_e (cr_st r) = le ++ ts_e st0 /\ length (ts_e st0) = S nup /\ cr_ri r = S nup /\ topr (ts_t st0) = t0 /\ (length le <= nsteps)%nat /\
    ts_t (cr_st r) = rev (firstn (length le) (creep_times logs t0 h nsteps)) ++ ts_t st0 /\ nondecreasing (le ++ [topr (ts_e st0)]) /\
    (cr_failed r = false <-> length le = nsteps) /\
    (exists e, errors P nup e /\ norm2 6 (fun i => top (dv_stress (ts_d st0)) i - smax * unitv sdir i) <= e) /\
    (cr_failed r = false -> exists e, errors P (nup + nsteps) e /\ norm2 6 (fun i => top (dv_stress (ts_d (cr_st r))) i - smax * unitv sdir i) <= e).
Proof. exact @creep_sound. Qed.
Print Assumptions C80_creep.
Theorem C80_creep_last_time : forall t0 h n, (0 < n)%nat -> nth (n - 1) (lin_times t0 h n) 0 = t0 + h.
Proof. exact @lin_last. Qed.
Print Assumptions C80_creep_last_time.
Theorem C80_creep_log_times : forall t0 h n, 0 < h -> (2 <= n)%nat -> nth 0 (log_times t0 h n) 0 = 1 + t0 /\ nth (n - 1) (log_times t0 h n) 0 = h + t0.
Proof. exact @log_ends. Qed.
Print Assumptions C80_creep_log_times.
(** logarithmic times of a hold shorter than one unit of time run backwards *)
Theorem C80_creep_log_times_refuted : forall t0 h n, 0 < h < 1 -> (2 <= n)%nat -> nth (n - 1) (log_times t0 h n) 0 < nth 0 (log_times t0 h n) 0.
Proof. exact @log_backwards. Qed.
Print Assumptions C80_creep_log_times_refuted.
(** compression creep is reported as a failure *)
Theorem C80_creep_compression_refuted : forall P, exactP P -> dp_nts P = true ->
  (exists r, creep (flow_model (-1)) P ax1 (-1) 1 1 0 100 None 1 1 false = Ret r /\ cr_failed r = true /\ ts_e (cr_st r) = [-2; 0] /\ top (dv_strain (ts_d (cr_st r))) 0%nat = -3) /\
  (exists r, creep (flow_model 1) P ax1 1 1 1 0 100 None 1 1 false = Ret r /\ cr_failed r = false /\ ts_e (cr_st r) = [3; 2; 0]).
Proof. exact @creep_compression. Qed.
Print Assumptions C80_creep_compression_refuted.
(** the last point of the curve is at the given strain, between two stresses *)
Theorem C80_isochronous_curve : forall fuel f emax ds mc r, 0 < emax -> isochronous fuel f emax ds mc = Ret r ->
  exists s e0 s0 l, r = (emax, s) :: (e0, s0) :: l /\ Forall (iso_point f) ((e0, s0) :: l) /\ e0 < emax /\
    ((s = s0 /\ exists s', forall e, f s' <> Ret (e, false)) \/ (exists e1 s1, f s1 = Ret (e1, false) /\ emax <= e1 /\ s = s0 + (s1 - s0) * ((emax - e0) / (e1 - e0)) /\ Rmin s0 s1 <= s <= Rmax s0 s1)).
Proof. exact @iso_sound. Qed.
Print Assumptions C80_isochronous_curve.
(** the strain used for the curve is the one before last *)
Theorem C80_isochronous_time : forall M P sdir smax srate h T elimit dmg nsteps nup r, allzero sdir = false -> (0 < nup)%nat -> (2 <= nsteps)%nat ->
  creep M P sdir smax srate h T elimit dmg nsteps nup false = Ret r -> cr_failed r = false ->
  exists t0, topr (tstrain r) = nth 1 (ts_e (cr_st r)) 0 /\ length (tstrain r) = (nsteps - 1)%nat /\ topr (ts_t (cr_st r)) = t0 + h /\ nth 1 (ts_t (cr_st r)) 0 = t0 + INR (nsteps - 1) * (h / INR nsteps).
Proof. exact @tstrain_early. Qed.
Print Assumptions C80_isochronous_time.
(** hence not that at the end of the hold *)
Theorem C80_isochronous_time_refuted : forall P, exactP P -> dp_nts P = true ->
  iso_strain (flow_model 1) P ax1 1 2 0 100 None 2 1 1 = Ret (3, false) /\
  exists r, creep (flow_model 1) P ax1 1 1 2 0 100 None 2 1 false = Ret r /\ ts_e (cr_st r) = [4; 3; 2; 0] /\ ts_t (cr_st r) = [3; 2; 1; 0].
Proof. exact @iso_early. Qed.
Print Assumptions C80_isochronous_time_refuted.
(** if the first stress fails the curve is zero *)
Theorem C80_isochronous_zero_refuted : forall fuel f emax ds mc e, 0 < emax -> f ds = Ret (e, true) -> isochronous (S fuel) f emax ds mc = Ret [(emax, 0); (0, 0)].
Proof. exact @iso_zero. Qed.
Print Assumptions C80_isochronous_zero_refuted.
(** a temperature and strain history loses its last point, and the reported mechanical strain is the thermal one *)
Theorem C80_thermomechanical_refuted : forall P, exactP P -> dp_nts P = false -> exists s, thermomechanical unit_model P ax1 (0, 0, 0) [(1, 1, 0); (2, 2, 0)] = Ret ([(0, 0, 0); (1, 1, 0)], [0; s], [0; 1]).
Proof. exact @thermo_wrong. Qed.
Print Assumptions C80_thermomechanical_refuted.
Theorem C80_ratcheting : forall ua ub pa pb e1a e1b e2a e2b rt at_, classify ua ub pa pb e1a e1b e2a e2b rt at_ = "ratcheting"%string ->
  at_ <= Rabs pb /\ rt * Rabs ub <= Rabs (ub - ua) /\ (rt * Rabs e1b <= Rabs (e1b - e1a) \/ rt * Rabs e2b <= Rabs (e2b - e2a)).
Proof. exact @classify_ratchet. Qed.
Print Assumptions C80_ratcheting.
Theorem C80_steady : forall u p e1 e2 rt at_, 0 < rt -> u <> 0 \/ (e1 <> 0 /\ e2 <> 0) -> classify u u p p e1 e1 e2 e2 rt at_ <> "ratcheting"%string.
Proof. exact @classify_steady. Qed.
Print Assumptions C80_steady.
(** identical cycles are called ratcheting if one bar returns to zero strain *)
Theorem C80_steady_refuted : forall p e1 rt at_, 0 < rt -> at_ <= Rabs p -> classify 0 0 p p e1 e1 0 0 rt at_ = "ratcheting"%string.
Proof. exact @classify_zero. Qed.
Print Assumptions C80_steady_refuted.
Theorem C80_deformation_gradient : forall F1 F0 F1inv, (forall i j, (i < 3)%nat -> (j < 3)%nat -> mm 3 F1inv F1 i j = id3 i j) -> forall i j, (i < 3)%nat -> (j < 3)%nat -> mm 3 (dg_L F1 F0 F1inv) F1 i j = F1 i j - F0 i j.
Proof. exact @dg_consistent. Qed.
Print Assumptions C80_deformation_gradient.
Theorem C80_deformation_gradient_parts : forall L, let D := dg_dD L in let W := dg_dW L in
  L 0%nat 0%nat = D 0%nat /\ L 1%nat 1%nat = D 1%nat /\ L 2%nat 2%nat = D 2%nat /\
  L 1%nat 2%nat = D 3%nat / sqrt 2 - W 0%nat /\ L 2%nat 1%nat = D 3%nat / sqrt 2 + W 0%nat /\
  L 0%nat 2%nat = D 4%nat / sqrt 2 + W 1%nat /\ L 2%nat 0%nat = D 4%nat / sqrt 2 - W 1%nat /\
  L 0%nat 1%nat = D 5%nat / sqrt 2 - W 2%nat /\ L 1%nat 0%nat = D 5%nat / sqrt 2 + W 2%nat.
Proof. exact @dg_parts. Qed.
Print Assumptions C80_deformation_gradient_parts.
(** a rotation adds stretching *)
Theorem C80_deformation_gradient_rotation_refuted : forall c s, c * c + s * s = 1 -> let D := dg_dD (dg_L (rot3 c s) id3 (rot3 c (- s))) in
  (forall i j, (i < 3)%nat -> (j < 3)%nat -> mm 3 (rot3 c (- s)) (rot3 c s) i j = id3 i j) /\ D 0%nat = 1 - c /\ D 1%nat = 1 - c /\ D 2%nat = 0.
Proof. exact @dg_rotation. Qed.
Print Assumptions C80_deformation_gradient_rotation_refuted.
Example C80_case : exactP P0 /\ exists st, ramp unit_model P0 ax1 ax1 1 1 0 None 7 (tst0 unit_model 0) = (st, None) /\ synced ax1 (tst0 unit_model 0).
Proof.
  split; [exact P0_exact|]. destruct (unit_ramp P0 ax1 ax1 1 1 0 P0_exact ltac:(rewrite norm_ax1; lra) ne1 ne1 7 (tst0 unit_model 0)) as [st H]. exists st. split; [exact H|apply synced_start].
Qed.
Example C80_cycle_case : cycle_ok (cyc_case 1 2).
Proof. unfold cycle_ok. cbn [cyc_case cp_nsteps cp_nhold cp_hold0 cp_hold1 cp_emax cp_R cp_sdir]. rewrite norm_ax1. repeat split; try lia; lra. Qed.
Example C80_creep_case : exactP P0 /\ dp_nts P0 = true /\ allzero ax1 = false.
Proof. split; [exact P0_exact|]. split; [reflexivity|exact ax_not_zero]. Qed.
Example C80_thermo_case : exactP PT /\ dp_nts PT = false.
Proof. split; [exact PT_exact|reflexivity]. Qed.
