(** Stress relaxation, follow up cycles, stress cycles, rate jumps and extrapolated strain cycles *)
From Verif Require Import Base Diff SolverModel SubstepModel CreepModel NlModel NlSpec NlProofs UniModel UniSpec UniProofs DrvModel DrvSpec DrvProofs DrvDeriv TestsModel TestsSpec TestsProofs TestsElastic TestsMore TestsCreep TestsEx PyEx.
From Verif Require Import CycModel CycSpec CycProofs CycMore CycJump CycEx.
From Coq Require Import ZArith String List Sorted Lia Lra.
Import ListNotations.
Open Scope R_scope.

(** ** C85 *)
(** the recorded ramp and hold: every pair of strain and stress of the hold is on the follow up line, the other stresses stay *)
Theorem C85_relaxation : forall M P i tc emax erate h T q nsteps nup logs r, (i < 6)%nat -> tc <> 0 -> emax <> 0 -> (0 < nup)%nat ->
  relaxation M P i tc emax erate h T q nsteps nup logs = Ret r ->
  exists E, slope M P erate T = Ret E /\ rx_ri r = S nup /\ length (ts_e (rx_up r)) = S nup /\ length (ts_s (rx_up r)) = S nup /\ length (ts_t (rx_up r)) = S nup /\
    ramp_entries P (axis i tc) erate (emax / INR nup) nup (tst0 M T) (rx_up r) /\ follow_entries P tc q E (hold_dts logs h nsteps) (rx_up r) (rx_st r) /\
    exists e, errors P nsteps e /\ forall j, (j < 6)%nat -> j <> i -> Rabs (top (dv_stress (ts_d (rx_st r))) j - top (dv_stress (ts_d (rx_up r))) j) <= e.
Proof. exact @relaxation_sound. Qed.
Print Assumptions C85_relaxation.
(** what the returned columns are: they start after the first step of the hold and omit the last *)
Theorem C85_relaxation_columns : forall M P i tc emax erate h T q nsteps nup logs r, (i < 6)%nat -> tc <> 0 -> emax <> 0 -> (0 < nup)%nat ->
  relaxation M P i tc emax erate h T q nsteps nup logs = Ret r ->
  exists le ls lt, ts_e (rx_st r) = le ++ ts_e (rx_up r) /\ ts_s (rx_st r) = ls ++ ts_s (rx_up r) /\ ts_t (rx_st r) = lt ++ ts_t (rx_up r) /\
    length le = nsteps /\ length ls = nsteps /\ length lt = nsteps /\
    length (rtime r) = (nsteps - 1)%nat /\ length (rstress r) = (nsteps - 1)%nat /\ length (rstrain r) = (nsteps - 1)%nat /\ length (rrate r) = (nsteps - 1)%nat /\
    forall k, (1 <= k < nsteps)%nat ->
      nth (k - 1) (rstress r) 0 = kth nsteps k ls /\ nth (k - 1) (rstrain r) 0 = kth nsteps k le /\ nth (k - 1) (rtime r) 0 = kth nsteps k lt - kth nsteps 1 lt /\
      nth (k - 1) (rrate r) 0 = - (kth nsteps (S k) ls - kth nsteps k ls) / (kth nsteps (S k) lt - kth nsteps k lt).
Proof. exact @relaxation_columns. Qed.
Print Assumptions C85_relaxation_columns.
(** so the stress relaxation starts from, 1/2 at time 1, is not among them, and time zero is one step later *)
Theorem C85_relaxation_peak_refuted : forall P, exactP P -> dp_nts P = true -> exists r, relaxation (dflow 0 (/ 2)) P 0 1 1 1 2 0 1 2 1 false = Ret r /\
  ts_s (rx_st r) = [- / 2; 0; / 2; 0] /\ ts_t (rx_st r) = [3; 2; 1; 0] /\ ts_e (rx_st r) = [1; 1; 1; 0] /\ rstress r = [0] /\ rtime r = [0] /\ rrate r = [/ 2].
Proof. exact @relaxation_peak. Qed.
Print Assumptions C85_relaxation_peak_refuted.
(** the time a hold takes: one unit less when spaced logarithmically *)
Theorem C85_hold_time : forall logs h n, 0 < h -> (0 < n)%nat -> total (hold_dts logs h n) = hold_time logs h.
Proof. exact @hold_dts_total. Qed.
Print Assumptions C85_hold_time.
(** so a hold spaced logarithmically does not last as long as asked for, and goes back in time when shorter than one unit *)
Theorem C85_log_hold_refuted : forall h n, 0 < h -> (0 < n)%nat -> total (hold_dts true h n) <> h /\ (h < 1 -> total (hold_dts true h n) < 0).
Proof. exact @log_hold_short. Qed.
Print Assumptions C85_log_hold_refuted.
(** a follow up cycle: the holds on the follow up line, the ramps by the amplitude *)
Theorem C85_followup_cycle : forall M P f E st si st', fu_ok f -> synced (axis (fp_i f) 1) st -> fu_cycle M P f E st = (si, (st', None)) ->
  let c := fp_c f in let u := axis (fp_i f) 1 in
  synced u st' /\ (exists ls s0, ts_s st' = ls ++ s0 /\ length s0 = si /\ ls <> [] /\ exists h, s0 = h ++ ts_s st) /\
  exists d0 d1 d2 n0 n1 n2 n3 e0 e1 e2 e3, errors P n0 e0 /\ errors P n1 e1 /\ errors P n2 e2 /\ errors P n3 e3 /\
    held (fp_i f) (fp_q f) E (hold_time (fp_logs f) (cp_hold0 c)) e0 (ts_d st) d0 /\
    moved u (- ampl c) (ampl c / cp_erate c) e1 (e1 * Rabs (ampl c / cp_erate c)) d0 d1 /\
    held (fp_i f) (fp_q f) E (hold_time (fp_logs f) (cp_hold1 c)) e2 d1 d2 /\
    moved u (ampl c) (ampl c / cp_erate c) e3 (e3 * Rabs (ampl c / cp_erate c)) d2 (ts_d st').
Proof. exact @fu_cycle_moves. Qed.
Print Assumptions C85_followup_cycle.
(** the follow up test: numbering, summaries of recorded stresses, time, and for q = 1 the strain at the end *)
Theorem C85_followup : forall M P f ncycles st cy, fu_ok f -> cp_emax (fp_c f) <> 0 -> followup M P f ncycles = Ret (st, cy) ->
  (length cy <= ncycles)%nat /\ map cy_n cy = rev (seq 0 (length cy)) /\ Forall (summary (ts_s st)) cy /\
  (length cy = ncycles -> topr (ts_t st) = cp_emax (fp_c f) / cp_erate (fp_c f) + INR ncycles * fu_period f /\
    (fp_q f = 1 -> exists N e, errors P N e /\
      Rabs (topr (ts_e st) - cp_emax (fp_c f)) <= e * (1 + Rabs (cp_emax (fp_c f) / cp_erate (fp_c f)) + Rabs (ampl (fp_c f) / cp_erate (fp_c f))))).
Proof. exact @followup_sound. Qed.
Print Assumptions C85_followup.
(** for other q the strains move away from the limits: a cycle between 1 and 0 becomes one between 2 and 1 *)
Theorem C85_followup_limits_refuted : forall P, exactP P -> dp_nts P = true -> exists st k, followup (dflow 0 (/ 2)) P fcase 1 = Ret (st, [k]) /\ ts_e st = [2; 1; 2; 1; 0] /\ topr (ts_t st) = 6.
Proof. exact @followup_drifts. Qed.
Print Assumptions C85_followup_limits_refuted.
(** stress cycles: numbering, summaries, time, limits, bounded strain steps *)
Theorem C85_stress_cyclic : forall M P c ncycles st cy, stress_ok c -> stress_cyclic M P c ncycles = Ret (st, cy) ->
  (length cy <= ncycles)%nat /\ map cy_n cy = rev (seq 0 (length cy)) /\ Forall (summary (ts_e st)) cy /\
  (length cy = ncycles -> length (ts_e st) = length (dv_t (ts_d st)) /\ topr (ts_t st) = topr (dv_t (ts_d st)) /\
    topr (dv_t (ts_d st)) = norm2 6 (sp_sdir c) * (Rabs (sp_smax c) / Rabs (sp_srate c)) + INR ncycles * sc_period c /\
    (exists up, length up = S (sp_nsteps c) /\ paced (sp_etol c) up (dv_strain (ts_d st))) /\
    exists N e, errors P N e /\ norm2 6 (fun i => top (dv_stress (ts_d st)) i - sp_smax c * unitv (sp_sdir c) i) <= e).
Proof. exact @stress_cyclic_sound. Qed.
Print Assumptions C85_stress_cyclic.
(** when the strain tolerance ends the test the returned times are longer than the returned strains; the first ramp is not checked *)
Theorem C85_stress_cyclic_stop_refuted : forall P etol, exactP P -> dp_nts P = true -> exists st cy, stress_cyclic (flow_model 0) P (scase etol) 1 = Ret (st, cy) /\
  (1 <= etol -> length cy = 1%nat /\ ts_e st = [1; 0; 1; 0] /\ topr (dv_t (ts_d st)) = 3) /\
  (0 < etol < 1 -> cy = [] /\ ts_e st = [1; 0] /\ length (dv_t (ts_d st)) = 3%nat /\ exists up, dv_strain (ts_d st) = top (dv_strain (ts_d st)) :: up /\ norm2 6 (fun i => nth 0 up v0 i - nth 1 up v0 i) = 1).
Proof. exact @stress_cyclic_run. Qed.
Print Assumptions C85_stress_cyclic_stop_refuted.
(** rate jumps: total time and strain *)
Theorem C85_rate_jump : forall fuel M P sdir rates T eper n st, eper <> 0 -> (0 < n)%nat -> 0 < norm2 6 sdir -> rate_jump fuel M P sdir rates T eper n None = Ret st ->
  topr (ts_t st) = total (map (fun r => eper / r) rates) /\
  exists N e, errors P N e /\ Rabs (topr (ts_e st) - norm2 6 sdir * (INR (length rates) * eper)) <= norm2 6 sdir * (e * total (map (fun r => Rabs (eper / r)) rates)).
Proof. exact @rate_jump_sound. Qed.
Print Assumptions C85_rate_jump.
(** increasing target strains are reached *)
Theorem C85_rate_jump_strains : forall M P sdir T n, (0 < n)%nat -> 0 < norm2 6 sdir -> forall l fuel prev st st', StronglySorted Rlt (prev :: map fst l) -> topr (ts_e st) = along (dv_strain (ts_d st)) sdir -> prev <= topr (ts_e st) ->
  jumps_to fuel M P sdir T n prev l st = Ret st' -> last (map fst l) prev <= topr (ts_e st').
Proof. exact @jumps_to_sound. Qed.
Print Assumptions C85_rate_jump_strains.
(** each with an overshoot of at most one step *)
Theorem C85_rate_jump_segment : forall M P sdir erate inc e T, inc <> 0 -> 0 < norm2 6 sdir -> forall fuel st st', topr (ts_e st) = along (dv_strain (ts_d st)) sdir -> jump_while fuel M P sdir erate inc e T st = Ret st' ->
  topr (ts_e st') = along (dv_strain (ts_d st')) sdir /\ e <= topr (ts_e st') /\
  (st' = st \/ topr (ts_e st) < e /\ exists r r0, within P r r0 /\ topr (ts_e st') <= e + norm2 6 sdir * (inc + r * Rabs (inc / erate))).
Proof. exact @while_sound. Qed.
Print Assumptions C85_rate_jump_segment.
(** a target that is not above the current strain gives no steps at all *)
Theorem C85_rate_jump_down_refuted : forall fuel M P sdir r T eper n e, e <= 0 -> rate_jump fuel M P sdir [r] T eper n (Some [e]) = Ret (tst0 M T).
Proof. exact @rate_jump_down. Qed.
Print Assumptions C85_rate_jump_down_refuted.
(** extrapolated cycles: computed ones summarise recorded stresses, the others lie on the line through the last two; the time counts the computed ones *)
Theorem C85_extrapolated : forall fuel M P p x, cycle_ok (xp_c p) -> extrapolated fuel M P p = Ret x -> exists tags, length tags = length (x_cy x) /\ xtrace p (ts_s (x_st x)) (combine (x_cy x) tags) /\
  ((xp_ncycles p <= x_s x)%nat -> topr (ts_t (x_st x)) = cp_emax (xp_c p) / cp_erate (xp_c p) + INR (computed (combine (x_cy x) tags)) * period (xp_c p)).
Proof. exact @extrapolated_sound. Qed.
Print Assumptions C85_extrapolated.
(** cycle numbers increase up to the number asked for *)
Theorem C85_extrapolated_numbers : forall p s l, (1 <= xp_jump p)%nat -> xtrace p s l -> StronglySorted gt (map (fun k => xc_n (fst k)) l) /\ Forall (fun k => (xc_n (fst k) <= xp_ncycles p)%nat) l.
Proof. exact @xtrace_numbers. Qed.
Print Assumptions C85_extrapolated_numbers.
(** the test ends *)
Theorem C85_extrapolated_ends : forall fuel M P p st, cycle_ok (xp_c p) -> (2 <= xp_min p)%nat -> (2 * xp_ncycles p <= fuel)%nat ->
  ramp M P (cp_sdir (xp_c p)) (cp_sdir (xp_c p)) (cp_erate (xp_c p)) (cp_emax (xp_c p) / INR (cp_nsteps (xp_c p))) (cp_T (xp_c p)) (cp_dmg (xp_c p)) (cp_nsteps (xp_c p)) (tst0 M (cp_T (xp_c p))) = (st, None) ->
  exists x, extrapolated fuel M P p = Ret x.
Proof. exact @extrapolated_returns. Qed.
Print Assumptions C85_extrapolated_ends.
(** the internal variables are continued by the change over the last cycle times the number of cycles *)
Theorem C85_extrapolated_history : forall M P p x x1 x2, cycle_ok (xp_c p) -> x_compute M P p x = (x1, true) -> x_extrapolate p x1 = Ret (x2, true) -> x_cy x2 <> x_cy x1 ->
  (forall c1 c0 cy, x_cy x1 = c1 :: c0 :: cy -> xc_n c1 = S (xc_n c0)) ->
  forall i, top (dv_stored (ts_d (x_st x2))) i = top (dv_stored (ts_d (x_st x1))) i + INR (x_s x2 - x_s x1) * (top (dv_stored (ts_d (x_st x1))) i - top (dv_stored (ts_d (x_st x))) i).
Proof. exact @history_line. Qed.
Print Assumptions C85_extrapolated_history.
(** but not the stress: its change per cycle is -2c and the extrapolated one gets -4c; time stands still (5, not 7); along another axis than the first the allowed jump is not checked, since component 0 is compared *)
Theorem C85_extrapolated_stress_refuted : forall P j c allow, (j < 6)%nat -> exactP P -> dp_nts P = true -> 0 <= allow -> (j = 0%nat -> Rabs (-4 * c) <= allow) -> exists x, extrapolated 3 (dflow j c) P (xpar j allow) = Ret x /\
  x_s x = 3%nat /\ map xc_n (x_cy x) = [3; 2; 1]%nat /\ topr (ts_t (x_st x)) = 5 /\
  map (fun v : vec => v j) (dv_stress (ts_d (x_st x))) = [1 - 9 * c; 1 - 5 * c; -4 * c; 1 - 3 * c; -2 * c; 1 - c; 0] /\
  xc_max (hd {| xc_n := 0; xc_max := 0; xc_min := 0 |} (x_cy x)) = pymax [1 - 5 * c; -4 * c] + (pymax [1 - 5 * c; -4 * c] - pymax [1 - 3 * c; -2 * c]).
Proof. exact @extrapolated_run. Qed.
Print Assumptions C85_extrapolated_stress_refuted.
(** a minimum number of cycles below two raises *)
Theorem C85_extrapolated_minimum_refuted : forall P p, exactP P -> dp_nts P = true -> xp_c p = xcase 0 -> (xp_min p <= 1)%nat -> (2 <= xp_ncycles p)%nat -> forall fuel, (2 <= fuel)%nat -> extrapolated fuel (dflow 0 0) P p = Raise PyValueError.
Proof. exact @extrapolated_min1. Qed.
Print Assumptions C85_extrapolated_minimum_refuted.
(** the hypotheses are met *)
Example C85_relax_case : exists r, relaxation (dflow 0 (/ 2)) P0 0 1 1 1 2 0 1 2 1 false = Ret r.
Proof. destruct (relaxation_peak P0) as (r & E & _); [apply P0_exact|reflexivity|]. exists r. exact E. Qed.
Example C85_followup_case : fu_ok fcase /\ exists st k, followup (dflow 0 (/ 2)) P0 fcase 1 = Ret (st, [k]).
Proof. split; [apply fcase_ok|]. destruct (followup_drifts P0) as (st & k & E & _); [apply P0_exact|reflexivity|]. exists st, k. exact E. Qed.
Example C85_stress_case : stress_ok (scase 1) /\ exists st k, stress_cyclic (flow_model 0) P0 (scase 1) 1 = Ret (st, [k]) /\ ts_e st = [1; 0; 1; 0].
Proof.
  split; [apply scase_ok|]. destruct (stress_cyclic_run P0 1) as (st & cy & E & H & _); [apply P0_exact|reflexivity|]. destruct (H ltac:(lra)) as (H1 & H2 & _). destruct cy as [|k [|]]; try discriminate. exists st, k. split; assumption.
Qed.
Example C85_extrapolated_case : cycle_ok (xp_c (xpar 1 0)) /\ exists x, extrapolated 3 (dflow 1 7) P0 (xpar 1 0) = Ret x /\ map xc_n (x_cy x) = [3; 2; 1]%nat /\
  map (fun v : vec => v 1%nat) (dv_stress (ts_d (x_st x))) = [1 - 9 * 7; 1 - 5 * 7; -4 * 7; 1 - 3 * 7; -2 * 7; 1 - 7; 0].
Proof.
  split; [apply xcase_ok; lia|]. destruct (extrapolated_run P0 1 7 0) as (x & E & _ & H & _ & K & _); try lia; try lra; [apply P0_exact|reflexivity|]. exists x. split; [exact E|]. split; assumption.
Qed.
