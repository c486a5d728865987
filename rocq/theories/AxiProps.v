(** The wall of a vessel: finite elements through the thickness, temperature histories, time steps and meshes *)
From Verif Require Import Base Diff SolverModel SubstepModel CreepModel NlModel NlSpec UniModel UniSpec PyEx BarModel BarSpec.
From Verif Require Import AxiModel AxiSpec AxiProofs AxiHist AxiJac AxiEx GradModel GradSpec GradProofs GradMesh.
From Coq Require Import List Arith ZArith Lia Lra.
Import ListNotations.
Open Scope R_scope.

(** ** C83 *)
(** whatever steps are asked for, failing or not, every recorded entry follows from the one before it in equilibrium, possibly in substeps *)
Theorem C83_history : forall a tri o rows, wall a -> 0 <= ao_atol o -> 0 < ao_div o -> axi_reach a tri o rows -> wall_history a (ao_rtol o) (ao_atol o) rows.
Proof. exact @reach_history. Qed.
Print Assumptions C83_history.
(** a call appends one entry for the requested time or raises and leaves the record *)
Theorem C83_step : forall a tri o fuel old rest t rows' r, wall a -> 0 <= ao_atol o -> 0 < ao_div o -> shape a old -> axi_step fuel a tri o (old :: rest) t = (rows', r) ->
  (exists e, r = Raise e /\ (e = Spins \/ rows' = old :: rest)) \/
  (r = Ret tt /\ exists s, rows' = s :: old :: rest /\ as_time s = t /\ shape a s /\ wall_path a (ao_rtol o) (ao_atol o) old s).
Proof. exact @step_result. Qed.
Print Assumptions C83_step.
(** an undivided step is in equilibrium with the loads of the requested time *)
Theorem C83_undivided : forall a tri o fuel old rest t s, wall a -> 0 <= ao_atol o -> 0 < ao_div o -> shape a old ->
  take_step a tri (old :: rest) t t (ao_rtol o) (ao_atol o) (ao_ilimit o) (ao_predict o) = Some s ->
  axi_step (S (S fuel)) a tri o (old :: rest) t = (s :: old :: rest, Ret tt) /\ wall_follows a (ao_rtol o) (ao_atol o) t old s.
Proof. exact @step_direct. Qed.
Print Assumptions C83_undivided.
(** a call that raises leaves the record *)
Theorem C83_atomic : forall a tri o fuel rows t rows' e, wall a -> axi_step fuel a tri o rows t = (rows', Raise e) -> e <> Spins -> rows' = rows.
Proof. exact @step_atomic. Qed.
Print Assumptions C83_atomic.
(** a call ends *)
Theorem C83_ends : forall a tri o k fuel rows t, (1 <= k)%nat -> ao_div o = INR k -> (k ^ ao_maxdiv o + ao_maxdiv o < fuel)%nat -> snd (axi_step fuel a tri o rows t) <> Raise Spins.
Proof. exact @step_ends. Qed.
Print Assumptions C83_ends.
(** thermal strains are those of the recorded temperatures *)
Theorem C83_thermal : forall a tri o rows al, wall a -> 0 <= ao_atol o -> 0 < ao_div o -> (forall e T, pm_alpha (ax_mat a e) T = al) -> axi_reach a tri o rows ->
  forall s, In s rows -> forall e k xi w, (e < ax_ne a)%nat -> nth_error (ax_gp a) k = Some (xi, w) -> exists q, point s e k = Some q /\
  forall i, gp_tstrain q i = if Nat.ltb i 3 then al * (lerp xi (as_temp s) e - lerp xi (fun n => ax_T a (ax_mesh a n) 0) e) else 0.
Proof. exact @reach_thermal. Qed.
Print Assumptions C83_thermal.
(** the hoop stresses carry the pressures, up to the residual *)
Theorem C83_hoop_force : forall a s, wall a -> shape a s ->
  Rabs (through_wall a s (fun _ _ q => gp_stress q 1%nat) - (as_press s * ax_ri a - as_ext s * ax_ro a)) <= norm2 (S (ax_ne a)) (ax_mesh a) * out_of_balance a s.
Proof. exact @hoop_balance. Qed.
Print Assumptions C83_hoop_force.
(** the mean over the thickness of the axial stress is that of the end load *)
Theorem C83_axial_mean : forall a s, ax_con a = false ->
  Rabs (through_wall a s (fun _ _ q => gp_stress q 2%nat) / (ax_ro a - ax_ri a) - (as_press s * ax_ri a ^ 2 - as_ext s * ax_ro a ^ 2) / (ax_ro a ^ 2 - ax_ri a ^ 2)) <= out_of_balance a s.
Proof. exact @axial_balance. Qed.
Print Assumptions C83_axial_mean.
(** which is not the axial force: the rings at larger radius are longer *)
Theorem C83_axial_force_refuted : forall tri, exists a o s, wall a /\ ax_con a = false /\ axi_step 2 a tri o [axi_init a] 1 = ([s; axi_init a], Ret tt) /\ wall_follows a 0 0 1 (axi_init a) s /\ out_of_balance a s <= 0 /\
  through_wall a s (fun e xi q => lerp xi (ax_mesh a) e * gp_stress q 2%nat) <> (as_press s * ax_ri a ^ 2 - as_ext s * ax_ro a ^ 2) / 2.
Proof. exact @axial_force. Qed.
Print Assumptions C83_axial_force_refuted.
(** the assembled matrix is the derivative of the residual *)
Theorem C83_jacobian : forall a old T pl pr t (x : R -> vec) u v (Rz : R -> vec) (Jz : R -> asm) (Lz : R -> list (list gp)), wall a -> shape a old -> path (S (S (ax_ne a))) x u v ->
  (forall e k xi w q, (e < ax_ne a)%nat -> In (xi, w) (ax_gp a) -> point old e k = Some q -> pt_slope a old T (x u) t e xi q) ->
  locally u (fun z => axi_RJ a old T pl pr t (x z) = Some (Rz z, Jz z, Lz z)) -> path (S (S (ax_ne a))) Rz u (axi_mv a (Jz u) v).
Proof. exact @axi_jacobian. Qed.
Print Assumptions C83_jacobian.
Example C83_jacobian_case : forall con old T x t e xi q, pt_slope (el_wall con) old T x t e xi q.
Proof.
  intros con old T x t e xi q q' A _ y r w v _ Py HL i Hi. unfold upd in HL. cbn [el_wall ax_mat el_mat pm_base ba_update] in HL.
  pose proof (locally_singleton _ _ HL) as E. cbv beta in E. injection E as E. rewrite <- E. cbn [pr_A].
  replace (mv 6 delta v i) with (v i) by (symmetry; apply (rsum_delta 6 i v Hi)).
  apply (is_derive_ext_loc (fun z => y z i)); [|apply Py, Hi].
  apply (filter_imp _ _ (fun z H => f_equal (fun o => match o with Some p => pr_s p i | None => 0 end) H) HL).
Qed.
(** the Newton step solves with it, by the Sherman-Morrison formula *)
Theorem C83_newton : forall a tri x Rv J x', tri_ok tri -> ax_con a = false -> a_22 J <> 0 -> axi_regular a J -> axi_move a tri x Rv J = Some x' ->
  veq (S (S (ax_ne a))) (axi_mv a J (fun k => x k - x' k)) Rv.
Proof. exact @newton_free. Qed.
Print Assumptions C83_newton.
(** and with the axial strain held *)
Theorem C83_newton_held : forall a tri x Rv J x', tri_ok tri -> ax_con a = true -> axi_move a tri x Rv J = Some x' ->
  veq (S (ax_ne a)) (axi_mv a J (fun k => x k - x' k)) Rv /\ x' (S (ax_ne a)) = x (S (ax_ne a)).
Proof. exact @newton_con. Qed.
Print Assumptions C83_newton_held.
(** elastic walls are always solved *)
Theorem C83_elastic : forall a tri rows old t trec rtol atol ilimit predict (C : nat -> mat), tri_ok tri -> tri_total tri -> wall a -> shape a old -> 0 <= atol -> (2 <= ilimit)%nat -> hd_error rows = Some old ->
  (forall e, (e < ax_ne a)%nat -> elastic_base (C e) (pm_base (ax_mat a e))) ->
  (forall x Rv J ll, axi_RJ a old (fun k => ax_T a (ax_mesh a k) t) (ax_p a t) (ax_pext a t) t x = Some (Rv, J, ll) -> axi_solvable a J) ->
  exists s, take_step a tri rows t trec rtol atol ilimit predict = Some s.
Proof. exact @take_elastic. Qed.
Print Assumptions C83_elastic.
(** a solution found in the last iteration allowed is thrown away *)
Theorem C83_last_iteration_refuted : forall tri, tri_ok tri -> tri_total tri -> exists a old T x R0 J0 l0 x1 R1 J1 l1, wall a /\ old = axi_init a /\ (forall k, x k = 0) /\ (forall k, T k = ax_T a (ax_mesh a k) 1) /\
  axi_RJ a old T (ax_p a 1) (ax_pext a 1) 1 x = Some (R0, J0, l0) /\ axi_move a tri x R0 J0 = Some x1 /\ axi_RJ a old T (ax_p a 1) (ax_pext a 1) 1 x1 = Some (R1, J1, l1) /\ axi_norm a R1 = 0 /\
  axi_step 2 a tri (opt 1 0 0) [old] 1 = ([old], Raise ModelError).
Proof. exact @last_iteration. Qed.
Print Assumptions C83_last_iteration_refuted.
(** a divided step may be taken under the loads of a later time *)
Theorem C83_substep_time_refuted : forall tri, exists a o rows s, wall a /\ axi_step 10 a tri o [axi_init a] 1 = (s :: rows, Ret tt) /\ rows = [axi_init a] /\ as_time s = 1 /\ as_press s = ax_p a 2 /\ as_press s <> ax_p a 1.
Proof. exact @divided_step. Qed.
Print Assumptions C83_substep_time_refuted.
Example C83_case : exists s, axi_step 2 (el_wall false) the_tri (opt 2 4 0) [axi_init (el_wall false)] 1 = ([s; axi_init (el_wall false)], Ret tt).
Proof. destruct (el_case false the_tri the_tri_ok the_tri_total) as (s & E & _). exists s. exact E. Qed.
Example C83_wall_case : wall (el_wall true) /\ forall e, (e < ax_ne (el_wall true))%nat -> elastic_base delta (pm_base (ax_mat (el_wall true) e)).
Proof. split; [apply el_ok|apply el_elastic]. Qed.

(** ** C84 *)
(** temperatures stay between the two given ones *)
Theorem C84_range : forall ri ro h r t, hist_ok h -> ri < ro -> ri <= r <= ro -> within (hi_T1 h) (hi_T2 h) (gradient ri ro h r t).
Proof. exact @gradient_range. Qed.
Print Assumptions C84_range.
(** the inner surface keeps the first one, linear across the wall *)
Theorem C84_linear : forall ri ro h r t, ri < ro -> gradient ri ro h ri t = hi_T1 h /\ gradient ri ro h r t = hi_T1 h + (r - ri) / (ro - ri) * (gradient ri ro h ro t - hi_T1 h).
Proof. exact @gradient_linear. Qed.
Print Assumptions C84_linear.
(** within a cycle: heating at the given rate, hold, cooling at the given rate, rest *)
Theorem C84_cycle : forall ri ro h s, hist_ok h -> ri < ro -> 0 <= s < cycle_time h -> let d := sgn3 (hi_T2 h - hi_T1 h) in
  (s <= heat_time h -> gradient ri ro h ro (hi_delay h + s) = hi_T1 h + d * (hi_hot h * s)) /\
  (heat_time h <= s <= heat_time h + hi_hold h -> gradient ri ro h ro (hi_delay h + s) = hi_T2 h) /\
  (heat_time h + hi_hold h <= s <= heat_time h + hi_hold h + cool_time h -> gradient ri ro h ro (hi_delay h + s) = hi_T2 h - d * (hi_cold h * (s - heat_time h - hi_hold h))) /\
  (heat_time h + hi_hold h + cool_time h <= s -> gradient ri ro h ro (hi_delay h + s) = hi_T1 h).
Proof. exact @gradient_cycle. Qed.
Print Assumptions C84_cycle.
(** the cycles repeat *)
Theorem C84_periodic : forall ri ro h r t k, hist_ok h -> hi_delay h <= t -> gradient ri ro h r (t + INR k * cycle_time h) = gradient ri ro h r t.
Proof. exact @gradient_periodic. Qed.
Print Assumptions C84_periodic.
(** temperatures never change faster than the greater rate, also from one cycle to the next *)
Theorem C84_rate : forall ri ro h r t t', hist_ok h -> ri < ro -> ri <= r <= ro -> Rabs (gradient ri ro h r t' - gradient ri ro h r t) <= Rmax (hi_hot h) (hi_cold h) * Rabs (t' - t).
Proof. exact @gradient_rate. Qed.
Print Assumptions C84_rate.
(** time steps: from 0 to the end of the last cycle, increasing, stopping at every change of rate *)
Theorem C84_timesteps : forall h s n, hist_ok h -> steps_ok s -> 0 <= hi_delay h -> let ts := timesteps h s n in
  hd 0 ts = 0 /\ last ts 0 = hi_delay h + INR n * cycle_time h /\ In (hi_delay h) ts /\ (forall i, (i < n)%nat -> Forall (fun c => In c ts) (corners h i)) /\ (hi_T1 h <> hi_T2 h -> increasing ts).
Proof. exact @timesteps_ok. Qed.
Print Assumptions C84_timesteps.
(** layers: the same heat flux everywhere *)
Theorem C84_layers_flux : forall rs ks h flip t, knots rs ks -> exists q, forall i r r', (i < length ks)%nat -> nth i rs 0 <= r <= nth (S i) rs 0 -> nth i rs 0 <= r' <= nth (S i) rs 0 ->
  exists a b, multi rs ks h flip r t = Some a /\ multi rs ks h flip r' t = Some b /\ nth i ks 0 * (b - a) = q * (r' - r).
Proof. exact @multi_flux. Qed.
Print Assumptions C84_layers_flux.
(** the temperatures of the surfaces *)
Theorem C84_layers_surfaces : forall rs ks h t, knots rs ks -> let g := gradient (nth 0 rs 0) (nth (length ks) rs 0) h in
  multi rs ks h false (nth 0 rs 0) t = Some (hi_T1 h) /\ multi rs ks h false (nth (length ks) rs 0) t = Some (g (nth (length ks) rs 0) t) /\
  multi rs ks h true (nth 0 rs 0) t = Some (g (nth (length ks) rs 0) t) /\ multi rs ks h true (nth (length ks) rs 0) t = Some (hi_T1 h).
Proof. exact @multi_surfaces. Qed.
Print Assumptions C84_layers_surfaces.
Theorem C84_layers_range : forall rs ks h flip i r t, hist_ok h -> knots rs ks -> (i < length ks)%nat -> nth i rs 0 <= r <= nth (S i) rs 0 -> exists a, multi rs ks h flip r t = Some a /\ within (hi_T1 h) (hi_T2 h) a.
Proof. exact @multi_range. Qed.
Print Assumptions C84_layers_range.
(** one layer *)
Theorem C84_layers_single : forall ri ro k h r t, ri < ro -> 0 < k -> ri <= r <= ro -> multi [ri; ro] [k] h false r t = Some (gradient ri ro h r t).
Proof. exact @multi_single. Qed.
Print Assumptions C84_layers_single.
(** refused only if the lengths do not fit *)
Theorem C84_layers_lengths : forall rs ks h flip r t, multi rs ks h flip r t = None <-> length rs <> S (length ks).
Proof. exact @multi_lengths. Qed.
Print Assumptions C84_layers_lengths.
(** segments: even *)
Theorem C84_even : forall n, (1 <= n)%nat -> part_ok (even_part n) n.
Proof. exact @even_ok. Qed.
Print Assumptions C84_even.
(** biased *)
Theorem C84_bias : forall b n, 0 < b -> (1 <= n)%nat -> part_ok (bias_part b n) n.
Proof. exact @bias_ok. Qed.
Print Assumptions C84_bias.
Theorem C84_bias_symmetric : forall b n k, 0 < b -> (1 <= n)%nat -> (k <= n)%nat -> nth k (0 :: bias_part b n) 0 + nth (n - k) (0 :: bias_part b n) 0 = 1.
Proof. exact @bias_mirror. Qed.
Print Assumptions C84_bias_symmetric.
(** nodes are closer to the ends than in an even mesh *)
Theorem C84_bias_ends : forall b n k, 1 <= b -> (1 <= n)%nat -> (k + k <= n)%nat -> nth k (0 :: bias_part b n) 0 <= INR k / INR n.
Proof. exact @bias_ends. Qed.
Print Assumptions C84_bias_ends.
(** the mesh: increasing, through all given points, with the numbers of elements asked for *)
Theorem C84_mesh : forall part rs ns, (forall n, (1 <= n)%nat -> part_ok (part n) n) -> segments rs ns ->
  increasing (mesh part rs ns) /\ hd 0 (mesh part rs ns) = hd 0 rs /\ last (mesh part rs ns) 0 = last rs 0 /\ length (mesh part rs ns) = S (list_sum ns) /\ (forall r, In r rs -> In r (mesh part rs ns)).
Proof. exact @mesh_ok. Qed.
Print Assumptions C84_mesh.
(** hence a wall *)
Theorem C84_wall : forall part rule rs mats ns dflt T p pext con, (forall n, (1 <= n)%nat -> part_ok (part n) n) -> segments rs ns -> ns <> [] -> 0 < hd 0 rs -> Forall (fun g => -1 <= fst g <= 1) rule -> sum_over rule snd = 2 ->
  wall (axi_make part rule rs mats ns dflt T p pext con) /\ ax_ne (axi_make part rule rs mats ns dflt T p pext con) = list_sum ns /\ (forall r, In r rs -> exists k, (k <= list_sum ns)%nat /\ ax_mesh (axi_make part rule rs mats ns dflt T p pext con) k = r).
Proof. exact @make_wall. Qed.
Print Assumptions C84_wall.
(** each element with the material of its layer *)
Theorem C84_materials : forall part rule rs mats ns dflt T p pext con i j, (forall n, (1 <= n)%nat -> part_ok (part n) n) -> segments rs ns -> length mats = length ns -> (i < length ns)%nat -> (j < nth i ns 0)%nat ->
  let a := axi_make part rule rs mats ns dflt T p pext con in let e := (list_sum (firstn i ns) + j)%nat in
  ax_mat a e = nth i mats dflt /\ nth i rs 0 <= ax_mesh a e /\ ax_mesh a e < ax_mesh a (S e) /\ ax_mesh a (S e) <= nth (S i) rs 0.
Proof. exact @make_layers. Qed.
Print Assumptions C84_materials.
Definition ex_hist : hist := {| hi_T1 := 300; hi_T2 := 500; hi_hot := 10; hi_hold := 5; hi_cold := 20; hi_together := 1; hi_delay := 2 |}.
Example C84_hist_case : hist_ok ex_hist /\ hi_T1 ex_hist <> hi_T2 ex_hist /\ cycle_time ex_hist = 36.
Proof. split; [repeat split; cbn; lra|]. split; [cbn; lra|]. unfold cycle_time, heat_time, cool_time. cbn. rewrite Rabs_right by lra. field. Qed.
Example C84_steps_case : steps_ok {| st_nheat := 3; st_nhold := 1; st_ncool := 2; st_together := 1; st_ndelay := 4 |}.
Proof. repeat split; cbn; lia. Qed.
Example C84_layers_case : knots [1; 2; 5] [10; 20] /\ segments [1; 2; 5] [3%nat; 4%nat].
Proof. split; (split; [reflexivity|split; [cbn; lra|]]); [split; [repeat constructor; lra|cbn; lia]|repeat constructor; lia]. Qed.
