(** Networks of bars and the Bree problem *)
From Verif Require Import Base Diff SolverModel NlModel NlSpec UniModel UniSpec PyEx.
From Verif Require Import BarModel BarSpec BarProofs BreeModel BreeSpec BreeProofs BarEx.
From Coq Require Import List Arith ZArith Lia Lra.
Import ListNotations.
Open Scope R_scope.

(** ** C81 *)
(** whatever steps are asked for, failing or not, every recorded entry follows the one before it in equilibrium *)
Theorem C81_equilibrium : forall solve g o H, net_wf g -> net_reach solve g o H ->
  chain (in_equilibrium g o) (fst (net_init g)) (fst H) (snd H).
Proof. exact @reach_equilibrium. Qed.
Print Assumptions C81_equilibrium.
(** the recorded forces of all nodes add up to nothing *)
Theorem C81_self_balance : forall solve g o H s, net_wf g -> net_reach solve g o H -> In s (whole H) -> rsum (g_n g) (fun n => ns_force s n) = 0.
Proof. exact @reach_selfbalance. Qed.
Print Assumptions C81_self_balance.
(** the Jacobian is the derivative of the residual *)
Theorem C81_jacobian : forall g s dt (d : R -> vec) w v (Rz : R -> vec) (Jz : R -> mat) (Q : R -> list bst), net_wf g -> length (ns_bars s) = length (g_edges g) ->
  (forall k i j b q, nth_error (g_edges g) k = Some (i, j, b) -> nth_error (ns_bars s) k = Some q -> bar_slope b q (ns_time s + dt) (ns_time s)) ->
  path (length (net_free g)) d w v -> locally w (fun z => net_RJ g s dt (d z) = Ret (Rz z, Jz z, Q z)) ->
  path (length (net_free g)) Rz w (mv (length (net_free g)) (Jz w) v).
Proof. exact @net_jacobian. Qed.
Print Assumptions C81_jacobian.
Theorem C81_jacobian_symmetric : forall g s dt d R J qs, length (ns_bars s) = length (g_edges g) -> net_RJ g s dt d = Ret (R, J, qs) -> forall r c, J r c = J c r.
Proof. exact @net_symmetric. Qed.
Print Assumptions C81_jacobian_symmetric.
(** and regular for a supported network of bars with positive slopes *)
Theorem C81_jacobian_regular : forall g s dt d R J qs, net_wf g -> length (ns_bars s) = length (g_edges g) -> net_RJ g s dt d = Ret (R, J, qs) ->
  (forall n, (n < g_n g)%nat -> supported g n) ->
  (forall k i j b q q' f K, nth_error (g_edges g) k = Some (i, j, b) -> nth_error (ns_bars s) k = Some q ->
     update_force b q (elongation g d (ns_time s + dt) i j) (ns_time s + dt) (ns_time s) = Ret (q', (f, K)) -> 0 < K) ->
  forall v, veq (length (net_free g)) (mv (length (net_free g)) J v) (fun _ => 0) -> veq (length (net_free g)) v (fun _ => 0).
Proof. exact @net_nonsing. Qed.
Print Assumptions C81_jacobian_regular.
(** a supported elastic network is solved in one step, whatever came before *)
Theorem C81_elastic : forall fuel solve g o H dt (E : bar -> R), solve_ok solve -> solve_total solve -> 0 <= o_rtol o -> 0 <= o_atol o -> 0 < o_dfact o -> net_wf g ->
  net_reach solve g o H -> (forall n, (n < g_n g)%nat -> supported g n) ->
  (forall i j b, In (i, j, b) (g_edges g) -> elastic_bar b (E b) /\ 0 < E b * b_A b / b_l b) ->
  exists s, net_solve (S (S fuel)) solve g o H dt = ((s, whole H), Ret tt) /\ in_equilibrium g o (fst H) s /\ ns_time s = ns_time (fst H) + dt.
Proof. exact @elastic_solve. Qed.
Print Assumptions C81_elastic.
(** substeps: only whole fractions of the step are added, and a call that returns has reached the end of the step *)
Theorem C81_time : forall fuel solve g o H dt H' r k, (1 <= k)%nat -> o_dfact o = INR k -> (1 <= o_ndiv o)%nat -> net_solve fuel solve g o H dt = (H', r) ->
  exists new n, goes_on_from H new H' /\ (n < o_ndiv o)%nat /\
    Forall (fun s => exists m, ns_time s - ns_time (fst H) = (INR m / INR k ^ n) * dt /\ (0 < m <= k ^ n)%nat) new /\
    (r = Ret tt -> ns_time (fst H') = ns_time (fst H) + dt).
Proof. exact @solve_time. Qed.
Print Assumptions C81_time.
(** a call ends *)
Theorem C81_ends : forall solve g o H dt k, (1 <= k)%nat -> o_dfact o = INR k -> (1 <= o_ndiv o)%nat -> quiet g -> forall fuel, (k ^ (o_ndiv o - 1) + o_ndiv o < fuel)%nat ->
  snd (net_solve fuel solve g o H dt) <> Raise Spins.
Proof. exact @solve_ends. Qed.
Print Assumptions C81_ends.
Example C81_ends_case : quiet ex_net /\ forall solve o H dt, o_dfact o = 2 -> o_ndiv o = 4%nat -> snd (net_solve 13 solve ex_net o H dt) <> Raise Spins.
Proof.
  assert (Q : quiet ex_net) by (intros i j b [E|[E|[E|[]]]]; injection E as <- <- <-; cbn; discriminate).
  split; [exact Q|]. intros solve o H dt Hd Hn. apply (C81_ends solve ex_net o H dt 2); [lia|rewrite Hd; cbn; ring|lia|exact Q|rewrite Hn; cbn; lia].
Qed.
(** but with no subdivisions allowed a failing step is divided for ever *)
Theorem C81_endless_refuted : forall solve, exists g o, net_wf g /\ o_ndiv o = 0%nat /\ forall fuel, net_solve fuel solve g o (net_init g) 1 = (net_init g, Raise Spins).
Proof. exact @ndiv0_spins. Qed.
Print Assumptions C81_endless_refuted.
(** a call that fails may leave part of the step *)
Theorem C81_failure_refuted : forall solve, exists g o H H' e, net_wf g /\ net_reach solve g o H /\ net_solve 10 solve g o H 1 = (H', Raise e) /\
  ns_time (fst H) = 0 /\ ns_time (fst H') = / 2 /\ snd H' = whole H.
Proof. exact @not_atomic. Qed.
Print Assumptions C81_failure_refuted.
(** the recorded dissipation is the recorded energy *)
Theorem C81_dissipation_partial : forall solve g o H s, net_reach solve g o H -> In s (whole H) -> ns_diss s = ns_energy s.
Proof. exact @reach_diss. Qed.
Print Assumptions C81_dissipation_partial.
(** hence not the dissipation of the bars *)
Theorem C81_dissipation_refuted : forall solve, exists g o H s, net_wf g /\ net_reach solve g o H /\ In s (whole H) /\
  ns_diss s <> sum_over (combine (g_edges g) (ns_bars s)) (fun x => let '((i, j, b), q) := x in bs_diss q * (b_A b * b_l b)).
Proof. exact @dissipation_wrong. Qed.
Print Assumptions C81_dissipation_refuted.
Example C81_case : exists s, net_solve 2 the_solve ex_net (default_opt 4 2 false) (net_init ex_net) 1 = ((s, whole (net_init ex_net)), Ret tt) /\ in_equilibrium ex_net (default_opt 4 2 false) (fst (net_init ex_net)) s /\ ns_time s = 1.
Proof.
  destruct (elastic_solve 0 the_solve ex_net (default_opt 4 2 false) (net_init ex_net) 1 lin_E the_solve_ok the_solve_total) as (s & E & Q & T); try (cbn; lra).
  - exact ex_wf.
  - constructor.
  - exact ex_supported.
  - exact ex_elastic.
  - exists s. split; [exact E|]. split; [exact Q|]. rewrite T. cbn. ring.
Qed.
Example C81_slope_case : forall q t1 t0, bar_slope (lin_bar 100) q t1 t0.
Proof. intros. apply lin_slope. Qed.

(** ** C82 *)
(** a step that returns: the wall carries the hoop stress within the default tolerances, with one strain, at the temperature of each point *)
Theorem C82_wall : forall fuel solve b ndiv k extra rtol atol q t q', (1 <= k)%nat -> (1 <= ndiv)%nat -> in_sync b q ->
  bree_step fuel solve b ndiv (INR k) extra rtol atol q t = (q', Ret tt) ->
  in_sync b q' /\ exists row, snd q' = row :: snd q /\ bw_time row = t /\ bw_press row = be_p b t /\ bw_ext row = be_pext b t /\ bw_hoop row = be_P b t /\
    wall_ok b t (bw_strain row) (bw_bars row) /\ bw_force row = wall_force (be_pts b) (bw_bars row) /\
    exists qs0, length qs0 = length (be_pts b) /\ (wall_gap b t (bw_bars row) <= / 1000000 * wall_gap b t qs0 \/ wall_gap b t (bw_bars row) <= / 100000000).
Proof. exact @bree_step_ok. Qed.
Print Assumptions C82_wall.
Theorem C82_start : forall b, in_sync b (bree_start b).
Proof. exact @bree_start_sync. Qed.
Print Assumptions C82_start.
(** also after the loading is changed *)
Theorem C82_loading : forall b q p T pext, in_sync b q -> in_sync (bree_loading b p T pext) q.
Proof. exact @bree_loading_sync. Qed.
Print Assumptions C82_loading.
(** a step back in time is refused *)
Theorem C82_back : forall fuel solve b ndiv dfact extra rtol atol H r rows t, t < bw_time r ->
  bree_step fuel solve b ndiv dfact extra rtol atol (H, r :: rows) t = ((H, r :: rows), Raise PyValueError).
Proof. exact @bree_back. Qed.
Print Assumptions C82_back.
(** the force through the wall is that of the pressures *)
Theorem C82_pressure : forall rule rs ns mats T p pext t, fits rs ns mats -> Forall (weights_2 rule) ns -> last rs 0 <> hd 0 rs ->
  let b := bree_make rule rs ns mats T p pext false in
  be_P b t * wall_thickness (be_pts b) = p t * hd 0 rs - pext t * last rs 0.
Proof. exact @bree_pressure. Qed.
Print Assumptions C82_pressure.
(** the rectangle rule integrates constants *)
Theorem C82_rectangle_weights : forall n, (1 <= n)%nat -> weights_2 rect n.
Proof. exact @rect_weights. Qed.
Print Assumptions C82_rectangle_weights.
(** and linear functions *)
Theorem C82_rectangle_first : forall n, (1 <= n)%nat -> sum_over (rect n) (fun a => snd a * fst a) = 0.
Proof. exact @rect_first. Qed.
Print Assumptions C82_rectangle_first.
(** the tolerances given to step are not used *)
Theorem C82_tolerances_refuted : forall fuel solve b ndiv dfact extra rtol atol rtol' atol' q t, bree_step fuel solve b ndiv dfact extra rtol atol q t = bree_step fuel solve b ndiv dfact extra rtol' atol' q t.
Proof. exact @bree_tolerances. Qed.
Print Assumptions C82_tolerances_refuted.
(** what is recorded as energy and work *)
Theorem C82_energy_partial : forall v ps qs, bree_sum v ps qs = sum_over (combine ps qs) (fun x => snd (fst (fst x)) * (snd (fst (fst x)) * v (snd x))).
Proof. exact @bree_sum_square. Qed.
Print Assumptions C82_energy_partial.
(** is not the energy of the wall *)
Theorem C82_energy_refuted : forall solve, exists b q row, in_sync b (bree_start b) /\ bree_step 5 solve b 2 2 false 0 0 (bree_start b) 1 = (q, Ret tt) /\ hd_error (snd q) = Some row /\
  bw_energy row = 4 /\ wall_energy bs_energy (be_pts b) (bw_bars row) = 2 /\ bw_work row = 8 /\ wall_energy bs_diss (be_pts b) (bw_bars row) = 4.
Proof. exact @bree_energy_wrong. Qed.
Print Assumptions C82_energy_refuted.
(** after a step that failed, an entry is recorded for a time that the bars have passed *)
Theorem C82_time_refuted : forall solve, exists b q1 q2 e row, in_sync b (bree_start b) /\ bree_step 10 solve b 2 2 false 0 0 (bree_start b) 1 = (q1, Raise e) /\
  bree_step 10 solve b 2 2 false 0 0 q1 (1 / 4) = (q2, Ret tt) /\ hd_error (snd q2) = Some row /\ bw_time row = 1 / 4 /\ ns_time (fst (fst q2)) = 3 / 4.
Proof. exact @bree_desync. Qed.
Print Assumptions C82_time_refuted.
(** after update_loading the old pressure is recorded *)
Theorem C82_recorded_pressure_refuted : forall solve, exists b p T q row, let b' := bree_loading b p T (fun _ => 0) in
  bree_step 5 solve b' 2 2 false 0 0 (bree_start b) 1 = (q, Ret tt) /\ hd_error (snd q) = Some row /\ bw_time row = 1 /\ bw_hoop row = p 1 /\ bw_press row <> p 1.
Proof. exact @bree_pressure_wrong. Qed.
Print Assumptions C82_recorded_pressure_refuted.
Example C82_case : fits [1; 2; 4] [3%nat; 5%nat] [lin_mat 1; lin_mat 2] /\ Forall (weights_2 rect) [3%nat; 5%nat] /\ in_sync (bree_make rect [1; 2; 4] [3%nat; 5%nat] [lin_mat 1; lin_mat 2] (fun _ _ => 0) (fun t => t) (fun _ => 0) false) (bree_start (bree_make rect [1; 2; 4] [3%nat; 5%nat] [lin_mat 1; lin_mat 2] (fun _ _ => 0) (fun t => t) (fun _ => 0) false)).
Proof. split; [split; reflexivity|]. split; [|apply bree_start_sync]. repeat constructor; apply rect_weights; lia. Qed.
