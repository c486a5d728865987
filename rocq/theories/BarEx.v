(** Concrete networks: the hypotheses can be met, and what the code gets wrong. *)
From Verif Require Import Base Diff.
From Verif Require Import SolverModel NlModel NlSpec NlProofs UniModel UniSpec BarModel BarSpec BarProofs BreeModel BreeSpec BreeProofs.
From Coq Require Import ZArith List Arith Lia.
Import ListNotations.

(** an elastic bar material *)
Definition lin_mat (E : R) : bmat := {| bm_update := fun e _ _ _ _ _ _ h _ _ => Ret {| ur_s := E * e; ur_h := h; ur_A := E; ur_u := E * e * e / 2; ur_p := 0 |};
  bm_alpha := fun _ => 0; bm_estrain := fun s _ _ => s / E; bm_init := fun _ => 0 |}.
Definition lin_bar (E : R) : bar := {| b_mat := lin_mat E; b_A := 2; b_l := 1; b_T := fun _ => 300 |}.
Lemma lin_elastic E : elastic_bar (lin_bar E) E.
Proof. intros e e0 T T0 t t0 s h u p. eexists. cbn. split; [reflexivity|]. split; reflexivity. Qed.
Lemma lin_slope E q t1 t0 : bar_slope (lin_bar E) q t1 t0.
Proof.
  intros x r w v Dx HU. assert (E1 := locally_singleton _ _ HU). cbn in E1. assert (EA : ur_A (r w) = E) by (injection E1 as <-; reflexivity). rewrite EA.
  apply (D_loc (fun z => E * x z)); [eapply filter_imp; [|exact HU]; intros z Ez; cbn in Ez; injection Ez as <-; reflexivity|].
  eapply D_eq; [apply D_mult; [apply D_const|exact Dx]|cbv beta; ring].
Qed.
(** nodes 0 (support), 1 and 2, two bars in series and one parallel to the first; node 2 is pulled *)
Definition ex_net : net := {| g_n := 3;
  g_node := fun n => if Nat.eqb n 0 then {| n_fix := Some (fun _ => 0); n_force := None |} else if Nat.eqb n 2 then {| n_fix := None; n_force := Some (fun t => 10 * t) |} else {| n_fix := None; n_force := None |};
  g_edges := [(0%nat, 1%nat, lin_bar 100); (0%nat, 1%nat, lin_bar 50); (1%nat, 2%nat, lin_bar 100)] |}.
Lemma ex_wf : net_wf ex_net.
Proof. intros i j b [E|[E|[E|[]]]]; injection E as <- <- <-; cbn; repeat split; try lia; lra. Qed.
Lemma ex_supported n : (n < g_n ex_net)%nat -> supported ex_net n.
Proof.
  assert (S0 : supported ex_net 0) by (apply (sup_fixed ex_net 0%nat (fun _ => 0)); reflexivity).
  assert (S1 : supported ex_net 1) by (apply (sup_bar1 ex_net 0%nat 1%nat (lin_bar 100)); [left; reflexivity|exact S0]).
  assert (S2 : supported ex_net 2) by (apply (sup_bar1 ex_net 1%nat 2%nat (lin_bar 100)); [right; right; left; reflexivity|exact S1]).
  cbn. intros Hn. destruct n as [|[|[|n]]]; try assumption. lia.
Qed.
Definition lin_E (b : bar) : R := match bm_update (b_mat b) 0 0 0 0 0 0 0 (fun _ => 0) 0 0 with Ret r => ur_A r | Raise _ => 0 end.
Lemma ex_elastic i j b : In (i, j, b) (g_edges ex_net) -> elastic_bar b (lin_E b) /\ 0 < lin_E b * b_A b / b_l b.
Proof. intros [E|[E|[E|[]]]]; injection E as <- <- <-; (split; [apply lin_elastic|cbn; lra]). Qed.

(** a material that fails after time lim, and dissipates *)
Definition lim_mat (lim : R) : bmat := {| bm_update := fun e _ _ _ t _ _ h _ _ => if Rlt_dec lim t then Raise ModelError else Ret {| ur_s := 0; ur_h := h; ur_A := 1; ur_u := 1; ur_p := 2 |};
  bm_alpha := fun _ => 0; bm_estrain := fun _ _ _ => 0; bm_init := fun _ => 0 |}.
Definition lim_bar (lim : R) : bar := {| b_mat := lim_mat lim; b_A := 1; b_l := 1; b_T := fun _ => 0 |}.
Definition lim_net (lim : R) : net := {| g_n := 2; g_node := fun _ => {| n_fix := Some (fun _ => 0); n_force := None |}; g_edges := [(0%nat, 1%nat, lim_bar lim)] |}.
Lemma lim_wf lim : net_wf (lim_net lim).
Proof. intros i j b [E|[]]; injection E as <- <- <-; cbn; repeat split; try lia; lra. Qed.
Lemma lim_RJ lim s q dt d : ns_bars s = [q] -> net_RJ (lim_net lim) s dt d =
  if Rlt_dec lim (ns_time s + dt) then Raise ModelError else
   Ret (fun i => 0 - ext_force (lim_net lim) (ns_time s + dt) (nth i [] 0%nat), fun _ _ => 0,
    [{| bs_stress := 0; bs_strain := (0 + -1 * 0 + 1 * 0) / 1; bs_mstrain := (0 + -1 * 0 + 1 * 0) / 1 - (bs_tstrain q + (0 - bs_temp q) * (0 + 0) / 2); bs_estrain := 0;
        bs_tstrain := bs_tstrain q + (0 - bs_temp q) * (0 + 0) / 2; bs_energy := 1; bs_diss := 2; bs_temp := 0; bs_hist := bs_hist q |}]).
Proof.
  intros E. unfold net_RJ. rewrite E. cbn [lim_net g_edges bars_RJ]. unfold update_force. cbn [lim_bar b_mat lim_mat bm_update]. cbv zeta.
  destruct (Rlt_dec lim (ns_time s + dt)); reflexivity.
Qed.
Definition lim_opt (ndiv : nat) : nopt := default_opt ndiv 2 false.
Lemma lim_try lim solve ndiv H q dt ef : ns_bars (fst H) = [q] ->
  (lim < ns_time (fst H) + dt -> net_try solve (lim_net lim) (lim_opt ndiv) H dt ef = Raise ModelError) /\
  (ns_time (fst H) + dt <= lim -> exists q' H', net_try solve (lim_net lim) (lim_opt ndiv) H dt ef = Ret H' /\ snd H' = whole H /\ ns_time (fst H') = ns_time (fst H) + dt /\
     ns_bars (fst H') = [q'] /\ ns_energy (fst H') = 1 /\ ns_diss (fst H') = 1 /\ bs_diss q' = 2).
Proof.
  intros Eq. unfold net_try, py_newton, py_run. cbn [net_sys vec_sys sys_RJ sys_init]. change (length (net_free (lim_net lim))) with 0%nat.
  split; intros L.
  - rewrite (lim_RJ lim (fst H) q dt _ Eq). destruct (Rlt_dec lim (ns_time (fst H) + dt)); [reflexivity|contradiction].
  - rewrite (lim_RJ lim (fst H) q dt _ Eq). destruct (Rlt_dec lim (ns_time (fst H) + dt)); [lra|].
    rewrite loop_S. match goal with |- context [sys_norm ?s ?D] => replace (sys_norm s D) with (Some 0) by (symmetry; exact (f_equal Some sqrt_0)) end.
    replace (py_goes_on (o_rtol (lim_opt ndiv)) (o_atol (lim_opt ndiv)) (Some 0) (Some 0)) with false.
    2:{ unfold py_goes_on, fgt, fmul, flt. destruct (Rlt_dec _ 0) as [Q|Q]; [rewrite Rmult_0_r in Q; lra|reflexivity]. }
    cbv iota beta. rewrite (lim_RJ lim (fst H) q dt _ Eq). destruct (Rlt_dec lim (ns_time (fst H) + dt)); [lra|].
    eexists _, _. split; [reflexivity|]. cbn. repeat split; ring.
Qed.
(** a step that is cut in two, whose second half fails: the first half stays *)
Lemma not_atomic solve : exists g o H H' e, net_wf g /\ net_reach solve g o H /\ net_solve 10 solve g o H 1 = (H', Raise e) /\
  ns_time (fst H) = 0 /\ ns_time (fst H') = / 2 /\ snd H' = whole H.
Proof.
  set (g := lim_net (3 / 4)). set (H0 := net_init g).
  destruct (lim_try (3 / 4) solve 2 H0 (bar_init (lim_bar (3 / 4))) 1 1 eq_refl) as [F1 _].
  destruct (lim_try (3 / 4) solve 2 H0 (bar_init (lim_bar (3 / 4))) (1 / 2) (1 / 2) eq_refl) as [_ S1].
  destruct S1 as (q' & H' & E1 & W1 & T1 & B1 & _); [cbn; lra|]. destruct (lim_try (3 / 4) solve 2 H' q' (1 / 2) 1 B1) as [F2 _].
  exists g, (lim_opt 2), H0, H', ModelError. split; [apply lim_wf|]. split; [constructor|]. split; [|split; [reflexivity|split; [rewrite T1; cbn; lra|exact W1]]].
  unfold net_solve. cbv zeta. cbn [o_dfact o_ndiv lim_opt default_opt net_loop]. destruct (Rlt_dec 0 (2 ^ 2)) as [L|L]; [|exfalso; apply L; cbn; lra].
  unfold g. rewrite F1 by (cbn; lra). cbn [Nat.eqb o_ndiv lim_opt default_opt]. destruct (Rlt_dec 0 (2 ^ 2)) as [L2|L2]; [|contradiction].
  change (o_dfact (lim_opt 2)) with 2. rewrite E1. destruct (Rlt_dec (0 + 2 ^ 2 / 2) (2 ^ 2)) as [L3|L3]; [|exfalso; apply L3; cbn; lra].
  rewrite F2 by (rewrite T1; cbn; lra). reflexivity.
Qed.
(** the dissipation of the bars is not what is recorded *)
Lemma dissipation_wrong solve : exists g o H s, net_wf g /\ net_reach solve g o H /\ In s (whole H) /\
  ns_diss s <> sum_over (combine (g_edges g) (ns_bars s)) (fun x => let '((i, j, b), q) := x in bs_diss q * (b_A b * b_l b)).
Proof.
  destruct (lim_try 10 solve 2 (net_init (lim_net 10)) (bar_init (lim_bar 10)) 1 1 eq_refl) as [_ S1].
  destruct S1 as (q' & H' & E1 & W1 & T1 & B1 & En & Di & Dq); [cbn; lra|].
  exists (lim_net 10), (lim_opt 2), H', (fst H'). split; [apply lim_wf|]. split; [|split; [left; reflexivity|]].
  - apply (nr_solve solve _ _ 2 (net_init (lim_net 10)) 1 H' (Ret tt)); [constructor|]. unfold net_solve. cbv zeta. cbn [o_dfact o_ndiv lim_opt default_opt net_loop].
    destruct (Rlt_dec 0 (2 ^ 2)) as [L|L]; [|exfalso; apply L; cbn; lra]. rewrite E1. destruct (Rlt_dec _ _) as [L2|L2]; [lra|reflexivity].
  - rewrite Di, B1. cbn. rewrite Dq. lra.
Qed.
(** a step that always fails, with ndiv = 0 *)
Lemma ndiv0_spins solve : exists g o, net_wf g /\ o_ndiv o = 0%nat /\ forall fuel, net_solve fuel solve g o (net_init g) 1 = (net_init g, Raise Spins).
Proof.
  exists (lim_net (-1)), (default_opt 0 2 false). split; [apply lim_wf|]. split; [reflexivity|]. intros fuel. unfold net_solve. cbv zeta.
  assert (HT : forall n dt ef, (n = 0)%nat -> 0 <= dt -> net_try solve (lim_net (-1)) (default_opt 0 2 false) (net_init (lim_net (-1))) dt ef = Raise ModelError).
  { intros n dt ef _ Hdt. destruct (lim_try (-1) solve 0 (net_init (lim_net (-1))) (bar_init (lim_bar (-1))) dt ef eq_refl) as [F _]. apply F. cbn. lra. }
  enough (E : forall fuel dt att tr ef, 0 <= dt -> net_loop fuel solve (lim_net (-1)) (default_opt 0 2 false) (2 ^ 0) (net_init (lim_net (-1))) dt att 0 tr ef = (net_init (lim_net (-1)), Raise Spins)) by (apply E; lra).
  clear fuel. induction fuel as [|fuel IH]; intros dt att tr ef Hdt; [reflexivity|]. cbn [net_loop]. destruct (Rlt_dec 0 (2 ^ 0)) as [L|L]; [|exfalso; apply L; cbn; lra].
  rewrite (HT 0%nat dt ef eq_refl Hdt). cbn [Nat.eqb o_ndiv default_opt]. apply IH. cbn [o_dfact default_opt]. lra.
Qed.

(** ** the Bree problem *)
(** one elastic point of weight 2 *)
Definition one_pt (m : bmat) (w : R) : bree := {| be_pts := [(0, w, m)]; be_P := fun _ => 0; be_p := fun t => t; be_pext := fun _ => 0; be_T := fun _ _ => 0; be_ri := 0; be_ro := w; be_th := w; be_hoop := true |}.
(** a material without stiffness needs: it answers zero stress and unit slope, energy 1 and
    dissipation 2, and fails after lim: [lim_mat] *)
Lemma one_RJ lim w s q dt d : ns_bars s = [q] -> net_RJ (bree_net (one_pt (lim_mat lim) w)) s dt d =
  if Rlt_dec lim (ns_time s + dt) then Raise ModelError else
   Ret (assemble (bree_net (one_pt (lim_mat lim) w)) (fun i => 0 - ext_force (bree_net (one_pt (lim_mat lim) w)) (ns_time s + dt) (nth i (net_free (bree_net (one_pt (lim_mat lim) w))) 0%nat), fun _ _ => 0) 0 1 (0 * w) (1 * w / 1),
    [{| bs_stress := 0; bs_strain := (0 + -1 * 0 + 1 * d 0%nat) / 1; bs_mstrain := (0 + -1 * 0 + 1 * d 0%nat) / 1 - (bs_tstrain q + (0 - bs_temp q) * (0 + 0) / 2); bs_estrain := 0;
        bs_tstrain := bs_tstrain q + (0 - bs_temp q) * (0 + 0) / 2; bs_energy := 1; bs_diss := 2; bs_temp := 0; bs_hist := bs_hist q |}]).
Proof.
  intros E. unfold net_RJ. rewrite E. cbn [bree_net one_pt g_edges be_pts map bars_RJ fst snd]. unfold update_force. cbn [b_mat b_A b_l b_T lim_mat bm_update]. cbv zeta.
  destruct (Rlt_dec lim (ns_time s + dt)); reflexivity.
Qed.
Lemma one_try lim w solve ndiv H q dt ef : ns_bars (fst H) = [q] ->
  (lim < ns_time (fst H) + dt -> net_try solve (bree_net (one_pt (lim_mat lim) w)) (lim_opt ndiv) H dt ef = Raise ModelError) /\
  (ns_time (fst H) + dt <= lim -> exists q' H', net_try solve (bree_net (one_pt (lim_mat lim) w)) (lim_opt ndiv) H dt ef = Ret H' /\ snd H' = whole H /\ ns_time (fst H') = ns_time (fst H) + dt /\
     ns_bars (fst H') = [q'] /\ bs_energy q' = 1 /\ bs_diss q' = 2).
Proof.
  intros Eq. unfold net_try, py_newton, py_run. cbn [net_sys vec_sys sys_RJ sys_init]. change (length (net_free (bree_net (one_pt (lim_mat lim) w)))) with 1%nat.
  split; intros L.
  - rewrite (one_RJ lim w (fst H) q dt _ Eq). destruct (Rlt_dec lim (ns_time (fst H) + dt)); [reflexivity|contradiction].
  - rewrite (one_RJ lim w (fst H) q dt _ Eq). destruct (Rlt_dec lim (ns_time (fst H) + dt)); [lra|].
    match goal with |- context [assemble ?g ?a 0 1 ?f ?k] => set (A := assemble g a 0 1 f k) end.
    assert (N0 : norm2 1 (fst A) = 0).
    { unfold norm2, dot. cbn [rsum]. unfold A. rewrite assemble_R. cbn. match goal with |- sqrt ?x = 0 => replace x with 0 by (unfold inc, hit; cbn; ring) end. apply sqrt_0. }
    destruct A as [R0 J0]. cbn [fst] in N0. cbv iota beta. rewrite loop_S. match goal with |- context [sys_norm ?s ?D] => replace (sys_norm s D) with (Some 0) by (symmetry; exact (f_equal Some N0)) end.
    replace (py_goes_on (o_rtol (lim_opt ndiv)) (o_atol (lim_opt ndiv)) (Some 0) (Some 0)) with false.
    2:{ unfold py_goes_on, fgt, fmul, flt. destruct (Rlt_dec _ 0) as [Q|Q]; [rewrite Rmult_0_r in Q; lra|reflexivity]. }
    cbv iota beta. rewrite (one_RJ lim w (fst H) q dt _ Eq). destruct (Rlt_dec lim (ns_time (fst H) + dt)); [lra|].
    match goal with |- context [assemble ?g ?a 0 1 ?f ?k] => generalize (assemble g a 0 1 f k) end. intros [R1 J1].
    eexists _, _. split; [reflexivity|]. cbn. repeat split; ring.
Qed.
(** the energy recorded is not the energy of the wall *)
Lemma bree_energy_wrong solve : exists b q row, in_sync b (bree_start b) /\ bree_step 5 solve b 2 2 false 0 0 (bree_start b) 1 = (q, Ret tt) /\ hd_error (snd q) = Some row /\
  bw_energy row = 4 /\ wall_energy bs_energy (be_pts b) (bw_bars row) = 2 /\ bw_work row = 8 /\ wall_energy bs_diss (be_pts b) (bw_bars row) = 4.
Proof.
  set (b := one_pt (lim_mat 10) 2). destruct (one_try 10 2 solve 2 (net_init (bree_net b)) (bar_init {| b_mat := lim_mat 10; b_A := 2; b_l := 1; b_T := fun _ => 0 |}) (1 - 0) 1 eq_refl) as [_ S1].
  destruct S1 as (q' & H' & E1 & W1 & T1 & B1 & En & Di); [cbn; lra|]. exists b. unfold bree_step. cbn [bree_start snd fst bw_time]. cbv zeta.
  destruct (Rlt_dec (1 - 0) 0); [lra|]. unfold net_solve. cbv zeta. cbn [o_dfact o_ndiv default_opt net_loop].
  destruct (Rlt_dec 0 (2 ^ 2)) as [L|L]; [|exfalso; apply L; cbn; lra]. change (default_opt 2 2 false) with (lim_opt 2). subst b. rewrite E1.
  destruct (Rlt_dec (0 + 2 ^ 2) (2 ^ 2)) as [L2|L2]; [lra|]. eexists _, _. split; [apply bree_start_sync|]. split; [reflexivity|]. split; [reflexivity|].
  cbn [bw_energy bw_bars bw_work]. rewrite B1. cbn. rewrite En, Di. repeat split; ring.
Qed.
(** after a step that failed half way, the clock of the bars is ahead: the next entry is recorded for
    a time the bars have passed *)
Lemma bree_desync solve : exists b q1 q2 e row, in_sync b (bree_start b) /\ bree_step 10 solve b 2 2 false 0 0 (bree_start b) 1 = (q1, Raise e) /\
  bree_step 10 solve b 2 2 false 0 0 q1 (1 / 4) = (q2, Ret tt) /\ hd_error (snd q2) = Some row /\ bw_time row = 1 / 4 /\ ns_time (fst (fst q2)) = 3 / 4.
Proof.
  set (b := one_pt (lim_mat (3 / 4)) 2). set (q0 := bar_init {| b_mat := lim_mat (3 / 4); b_A := 2; b_l := 1; b_T := fun _ => 0 |}).
  destruct (one_try (3 / 4) 2 solve 2 (net_init (bree_net b)) q0 (1 - 0) 1 eq_refl) as [F1 _].
  destruct (one_try (3 / 4) 2 solve 2 (net_init (bree_net b)) q0 ((1 - 0) / 2) (1 / 2) eq_refl) as [_ S1].
  destruct S1 as (q' & H' & E1 & W1 & T1 & B1 & _); [cbn; lra|]. destruct (one_try (3 / 4) 2 solve 2 H' q' ((1 - 0) / 2) 1 B1) as [F2 _].
  destruct (one_try (3 / 4) 2 solve 2 H' q' (1 / 4 - 0) 1 B1) as [_ S2]. destruct S2 as (q'' & H'' & E2 & W2 & T2 & B2 & _); [rewrite T1; cbn; lra|].
  assert (A1 : bree_step 10 solve b 2 2 false 0 0 (bree_start b) 1 = ((H', snd (bree_start b)), Raise ModelError)).
  { unfold bree_step. cbn [bree_start snd fst bw_time]. cbv zeta. destruct (Rlt_dec (1 - 0) 0); [lra|]. unfold net_solve. cbv zeta. cbn [o_dfact o_ndiv default_opt net_loop].
    destruct (Rlt_dec 0 (2 ^ 2)) as [L|L]; [|exfalso; apply L; cbn; lra]. change (default_opt 2 2 false) with (lim_opt 2). subst b. rewrite F1 by (cbn; lra).
    cbn [Nat.eqb o_ndiv lim_opt default_opt]. destruct (Rlt_dec 0 (2 ^ 2)) as [L2|L2]; [|contradiction]. change (o_dfact (default_opt 2 2 false)) with 2. change (default_opt 2 2 false) with (lim_opt 2). rewrite E1.
    destruct (Rlt_dec (0 + 2 ^ 2 / 2) (2 ^ 2)) as [L3|L3]; [|exfalso; apply L3; cbn; lra]. rewrite F2 by (rewrite T1; cbn; lra). reflexivity. }
  assert (A2 : exists row, bree_step 10 solve b 2 2 false 0 0 (H', snd (bree_start b)) (1 / 4) = ((H'', row :: snd (bree_start b)), Ret tt) /\ bw_time row = 1 / 4).
  { eexists. unfold bree_step. cbn [bree_start snd fst bw_time]. cbv zeta. destruct (Rlt_dec (1 / 4 - 0) 0); [lra|]. unfold net_solve. cbv zeta. cbn [o_dfact o_ndiv default_opt net_loop].
    destruct (Rlt_dec 0 (2 ^ 2)) as [L|L]; [|exfalso; apply L; cbn; lra]. change (default_opt 2 2 false) with (lim_opt 2). subst b. rewrite E2.
    destruct (Rlt_dec (0 + 2 ^ 2) (2 ^ 2)) as [L2|L2]; [lra|]. split; reflexivity. }
  destruct A2 as (row & A2 & Tr). exists b. do 3 eexists. exists row. split; [apply bree_start_sync|]. split; [exact A1|]. split; [exact A2|]. split; [reflexivity|]. split; [exact Tr|].
  cbn [fst]. rewrite T2, T1. cbn. lra.
Qed.
(** the pressure recorded after update_loading is still the old one *)
Lemma bree_pressure_wrong solve : exists b p T q row, let b' := bree_loading b p T (fun _ => 0) in
  bree_step 5 solve b' 2 2 false 0 0 (bree_start b) 1 = (q, Ret tt) /\ hd_error (snd q) = Some row /\ bw_time row = 1 /\ bw_hoop row = p 1 /\ bw_press row <> p 1.
Proof.
  set (b := one_pt (lim_mat 10) 2). pose (b' := bree_loading b (fun _ => 0) (fun _ _ => 0) (fun _ => 0)).
  destruct (one_try 10 2 solve 2 (net_init (bree_net b)) (bar_init {| b_mat := lim_mat 10; b_A := 2; b_l := 1; b_T := fun _ => 0 |}) (1 - 0) 1 eq_refl) as [_ S1].
  destruct S1 as (q' & H' & E1 & W1 & T1 & B1 & En & Di); [cbn; lra|]. exists b, (fun _ => 0), (fun _ _ => 0). cbv zeta. change (bree_net (bree_loading b (fun _ => 0) (fun _ _ => 0) (fun _ => 0))) with (bree_net b).
  unfold bree_step. cbn [bree_start snd fst bw_time]. cbv zeta.
  destruct (Rlt_dec (1 - 0) 0); [lra|]. unfold net_solve. cbv zeta. cbn [o_dfact o_ndiv default_opt net_loop].
  destruct (Rlt_dec 0 (2 ^ 2)) as [L|L]; [|exfalso; apply L; cbn; lra]. change (default_opt 2 2 false) with (lim_opt 2). change (bree_net (bree_loading b (fun _ => 0) (fun _ _ => 0) (fun _ => 0))) with (bree_net b). subst b. rewrite E1.
  destruct (Rlt_dec (0 + 2 ^ 2) (2 ^ 2)) as [L2|L2]; [lra|]. eexists _, _. split; [reflexivity|]. split; [reflexivity|]. split; [reflexivity|]. cbn. split; [reflexivity|lra].
Qed.
