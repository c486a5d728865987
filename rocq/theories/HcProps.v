(** The Hu-Cocks precipitation, hardening and Arrhenius models *)
From Verif Require Import Base Diff Blocks RotModel.
From Verif Require Import SlipModel SlipSpec SlipProofs SlipWhole HcModel HcSpec HcProofs HcMain HcHardSpec HcHard HcWhole HcInit HcEx.
From Coq Require Import Lia Lra List.
Import ListNotations.
Open Scope R_scope.

(** ** C86 *)
(** each species is shared between precipitate and solution *)
Theorem C86_mass : forall p f i, f <> 1 -> f * hp_cp p i + (1 - f) * hp_c p f i = hp_c0 p i.
Proof. exact @hc_mass. Qed.
Print Assumptions C86_mass.
(** and the concentration reported is the only one that does so *)
Theorem C86_mass_unique : forall p f i c, f <> 1 -> f * hp_cp p i + (1 - f) * c = hp_c0 p i -> c = hp_c p f i.
Proof. exact @hc_mass_unique. Qed.
Print Assumptions C86_mass_unique.
(** the weight of coarsening is a weight *)
Theorem C86_switch : forall p f, hc_phys p -> 0 < f < 1 -> 0 < hc_switch p f <= 1.
Proof. exact @hc_switch_range. Qed.
Print Assumptions C86_switch.
(** and one exactly when some species has reached equilibrium *)
Theorem C86_switch_equilibrium : forall p f, hc_phys p -> 0 < f < 1 -> (hc_switch p f = 1 <-> exists i, (i < hp_n p)%nat /\ hp_c p f i <= hp_ceq p i).
Proof. exact @hc_switch_one. Qed.
Print Assumptions C86_switch_equilibrium.
(** the driving force is negative exactly when the solution is supersaturated *)
Theorem C86_driving_force : forall p f, hc_phys p -> hc_cpos p f -> (hp_Gv p f < 0 <-> rprod (hp_n p) (hp_ceq p) < rprod (hp_n p) (hp_c p f)).
Proof. exact @hc_Gv_sign. Qed.
Print Assumptions C86_driving_force.
(** with every species above equilibrium nucleation has a positive rate and radius *)
Theorem C86_supersaturated : forall p f, hc_phys p -> (forall i, (i < hp_n p)%nat -> hp_ceq p i < hp_c p f i) ->
  hp_Gv p f < 0 /\ 0 < hp_rc p f /\ 0 < hp_Nn p f.
Proof. exact @hc_supersaturated. Qed.
Print Assumptions C86_supersaturated.
(** at equilibrium fewer and larger precipitates, with the same volume *)
Theorem C86_coarsening : forall p f r N, hc_phys p -> 0 < f < 1 -> 0 < r -> 0 < N -> 0 < hp_c p f (hp_rate p) -> (exists i, (i < hp_n p)%nat /\ hp_c p f i <= hp_ceq p i) ->
  hp_frate p f r N = 0 /\ 0 < hp_rrate p f r N /\ hp_Nrate p f r N < 0.
Proof. exact @hc_coarsen. Qed.
Print Assumptions C86_coarsening.
(** over any history the volume fraction and the volume of the precipitates change alike *)
Theorem C86_volume : forall p h a b t, hc_phys p -> hc_history p h a b -> a <= t <= b ->
  hp_f p (h t) - 4 * PI / 3 * hp_r p (h t) ^ 3 * hp_N p (h t) = hp_f p (h a) - 4 * PI / 3 * hp_r p (h a) ^ 3 * hp_N p (h a).
Proof. exact @hc_volume. Qed.
Print Assumptions C86_volume.
(** over any history no species is driven below its equilibrium *)
Theorem C86_no_undershoot : forall p h a b, hc_phys p -> hc_history p h a b -> (forall j, (j < hp_n p)%nat -> hp_ceq p j <= hp_c p (hp_f p (h a)) j) ->
  forall t j, a <= t <= b -> (j < hp_n p)%nat -> hp_ceq p j <= hp_c p (hp_f p (h t)) j.
Proof. exact @hc_above. Qed.
Print Assumptions C86_no_undershoot.
(** the scales of the stored variables do not change the physical rates *)
Theorem C86_scaling : forall p fs rs Ns h h', fs <> 0 -> rs <> 0 -> Ns <> 0 -> hp_fs p <> 0 -> hp_rs p <> 0 -> hp_Ns p <> 0 ->
  hc_values p h = hc_values (hc_rescale p fs rs Ns) h' ->
  hp_rates p h 0%nat * hp_fs p = hp_rates (hc_rescale p fs rs Ns) h' 0%nat * fs /\
  hp_rates p h 1%nat * hp_rs p = hp_rates (hc_rescale p fs rs Ns) h' 1%nat * rs /\
  hp_rates p h 2%nat * hp_Ns p = hp_rates (hc_rescale p fs rs Ns) h' 2%nat * Ns.
Proof. exact @hc_rescaled. Qed.
Print Assumptions C86_scaling.
(** nor the initial values *)
Theorem C86_initial : forall p, hp_fs p <> 0 -> hp_rs p <> 0 -> hp_Ns p <> 0 -> hc_values p (hp_init p) = (hp_fi p, hp_ri p, hp_Ni p).
Proof. exact @hc_initial. Qed.
Print Assumptions C86_initial.
(** the reported derivatives are those of the reported rates *)
Theorem C86_jacobian : forall p j, hc_phys p -> is_jac 3 3 (hc_reg p) (hp_rates p) (hp_jac p j).
Proof. exact @hc_jacobian. Qed.
Print Assumptions C86_jacobian.
(** without precipitate, a derivative depends on the value j an uninitialised variable happens to have *)
Theorem C86_no_precipitate_refuted : exists p h, hc_phys p /\ hp_f p h = 0 /\ forall j j', j <> j' -> hp_jac p j h 1%nat 0%nat <> hp_jac p j' h 1%nat 0%nat.
Proof. exact @hc_junk_seen. Qed.
Print Assumptions C86_no_precipitate_refuted.
(** with one species the driving force, by which the code divides, is zero at equilibrium, where the nucleation rates are multiplied by zero: the rates are not numbers *)
Theorem C86_equilibrium_refuted : forall p, hc_phys p -> hp_n p = 1%nat -> 0 < hc_feq p 0%nat < 1 /\ hc_switch p (hc_feq p 0%nat) = 1 /\ hp_Gv p (hc_feq p 0%nat) = 0.
Proof. exact @hc_equilibrium. Qed.
Print Assumptions C86_equilibrium_refuted.
(** the hypotheses are met *)
Example C86_phys_case : hc_phys (pcx 2 1).
Proof. apply pcx_phys; [lia|lra]. Qed.
Example C86_driving_force_case : hc_cpos (pcx 2 1) (/ 4) /\ rprod 2 (hp_ceq (pcx 2 1)) < rprod 2 (hp_c (pcx 2 1) (/ 4)) /\ hp_Gv (pcx 2 1) (/ 4) < 0.
Proof.
  assert (A : hc_cpos (pcx 2 1) (/ 4)) by (intros i Hi; unfold hp_c; cbn [pcx hp_c0 hp_cp]; lra).
  assert (B : rprod 2 (hp_ceq (pcx 2 1)) < rprod 2 (hp_c (pcx 2 1) (/ 4))) by (unfold hp_c; cbn; lra).
  split; [exact A|]. split; [exact B|]. apply (C86_driving_force (pcx 2 1) (/ 4) C86_phys_case A). exact B.
Qed.
Example C86_reg_case : hc_reg (pcx 2 1) (h3 (/ 4) 1 1).
Proof. exact pcx_reg. Qed.
Example C86_history_case : hc_history (pcx 2 1) pch 0 1 /\ (forall j, (j < 2)%nat -> hp_ceq (pcx 2 1) j <= hp_c (pcx 2 1) (hp_f (pcx 2 1) (pch 0)) j) /\ hp_r (pcx 2 1) (pch 0) < hp_r (pcx 2 1) (pch 1).
Proof.
  split; [exact pch_history|]. split.
  - intros j _. replace (hp_f (pcx 2 1) (pch 0)) with (/ 2) by (unfold hp_f; cbn; lra). apply pcx_above.
  - unfold hp_r. cbn [pch h3 hp_rs pcx]. rewrite !Rmult_1_r, Rmult_0_r, Rplus_0_r. pose proof pcK_pos. apply Rlt_Rpower_l; lra.
Qed.
Example C86_single_case : hc_phys (pcx 1 1) /\ hp_n (pcx 1 1) = 1%nat.
Proof. split; [apply pcx_phys; [lia|lra]|reflexivity]. Qed.
Example C86_rescale_case : hc_values (pcx 2 1) (h3 (/ 4) 1 1) = hc_values (hc_rescale (pcx 2 1) 2 2 2) (h3 (/ 8) (/ 2) (/ 2)).
Proof. unfold hc_values, hp_f, hp_r, hp_N. cbn. f_equal; [f_equal|]; field. Qed.

(** ** C87 *)
(** dislocation spacings: strength and evolution have the reported derivatives *)
Theorem C87_spacing : forall L v ne, ds_n v = l_n L -> strength_exact L (spacing v) (spacing_in v) /\ rates_exact L (spacing v) ne (fun _ => spacing_in v).
Proof. exact @spacing_exact. Qed.
Print Assumptions C87_spacing.
(** a spacing rests exactly where recovery balances the slip activity *)
Theorem C87_spacing_steady : forall v L sl h i, 0 < h i -> (h_rate (spacing v) L sl h i = 0 <-> h i ^ 6 * activity v L sl i = ds_K v).
Proof. exact @spacing_steady. Qed.
Print Assumptions C87_spacing_steady.
(** over any history of backward Euler steps spacings stay between the steady values of the largest and least activity *)
Theorem C87_spacing_history : forall v L steps h0 hn lo hi Smin Smax, spacing_steps v L h0 steps hn -> 0 <= ds_K v -> 0 <= ds_J1 v -> 0 <= ds_J2 v ->
  0 < lo -> lo ^ 6 * Smax <= ds_K v -> ds_K v <= hi ^ 6 * Smin ->
  (forall dt sl, In (dt, sl) steps -> forall i, (i < ds_n v)%nat -> Smin <= activity v L sl i <= Smax) ->
  (forall i, (i < ds_n v)%nat -> lo <= h0 i <= hi) -> forall i, (i < ds_n v)%nat -> lo <= hn i <= hi.
Proof. exact @spacing_history. Qed.
Print Assumptions C87_spacing_history.
(** and a step has one positive solution *)
Theorem C87_spacing_unique : forall v L sl dt h0 h1 h2 i, 0 <= dt -> 0 <= ds_K v -> 0 <= ds_J1 v -> 0 <= ds_J2 v -> 0 < h1 i -> 0 < h2 i ->
  h1 i = h0 i + dt * h_rate (spacing v) L sl h1 i -> h2 i = h0 i + dt * h_rate (spacing v) L sl h2 i -> h1 i = h2 i.
Proof. exact @spacing_unique. Qed.
Print Assumptions C87_spacing_unique.
(** the derivatives of the strength, for any dislocation model whose own are exact *)
Theorem C87_strength : forall L k Pd, strength_exact L (hk_d k) Pd -> strength_exact L (hucocks k) (hk_in L k Pd).
Proof. exact @hk_strength_exact. Qed.
Print Assumptions C87_strength.
(** the derivatives of the evolution *)
Theorem C87_rates : forall L k ne Pd, (forall i, (i < hk_m k)%nat -> hc_phys (hk_p k i)) ->
  rates_exact L (hk_d k) (hk_m k + ne) Pd -> rates_exact L (hucocks k) ne (hk_rate_in k Pd).
Proof. exact @hk_rates_exact. Qed.
Print Assumptions C87_rates.
(** precipitates and solute only add to the strength *)
Theorem C87_strength_bound : forall k L p h, 0 <= hk_ac k * hk_G k * hk_b k -> Rabs (h_tau (hk_d k) L p (hk_d_part k h)) <= h_tau (hucocks k) L p h.
Proof. exact @hk_tau_ge. Qed.
Print Assumptions C87_strength_bound.
(** without precipitation models the strength is the magnitude of the dislocation strength *)
Theorem C87_no_precipitates : forall k L p h, hk_m k = 0%nat -> h_tau (hucocks k) L p h = Rabs (h_tau (hk_d k) L p (hk_d_part k h)).
Proof. exact @hk_tau_bare. Qed.
Print Assumptions C87_no_precipitates.
(** the derivatives of the Arrhenius slip rate *)
Theorem C87_arrhenius : forall v res, 0 < ar_A v -> 0 <= ar_g0 v * ar_B v * ar_F v -> scalar_exact (ar_rule v res) ar_in.
Proof. exact @ar_exact. Qed.
Print Assumptions C87_arrhenius.
(** which has a jump at zero shear stress *)
Theorem C87_arrhenius_zero_refuted : forall v s, 0 < ar_g0 v -> 0 < ar_A v -> 0 <= ar_B v -> 0 <= ar_F v -> 0 < s -> ~ continuous (fun tau => ar_slip v tau (fun _ => s)) 0.
Proof. exact @ar_jump. Qed.
Print Assumptions C87_arrhenius_zero_refuted.
(** and takes a power of a negative number beyond the strength *)
Theorem C87_arrhenius_strength_refuted : forall tau s A, 0 < s < Rabs tau -> 0 < A -> 1 - cpow (Rabs (tau / s)) A < 0.
Proof. exact @ar_above. Qed.
Print Assumptions C87_arrhenius_strength_refuted.
(** slip rates and history rates of the whole rule, for any number of systems and precipitates *)
Theorem C87_rule : forall L v k d, 0 < ar_A v -> 0 <= ar_g0 v * ar_B v * ar_F v -> hk_d k = spacing d -> ds_n d = l_n L -> (forall i, (i < hk_m k)%nat -> hc_phys (hk_p k i)) ->
  is_jac2 (l_n L) 6 (r_nh (ar_rule v (hucocks k))) (slip_in L (ar_rule v (hucocks k)) ar_in (fun _ => hk_in L k (spacing_in d)))
    (rs_slip L (ar_rule v (hucocks k))) (rs_dslip_s L (ar_rule v (hucocks k))) (rs_dslip_h L (ar_rule v (hucocks k))) /\
  is_jac2 (r_nh (ar_rule v (hucocks k))) 6 (r_nh (ar_rule v (hucocks k)))
    (fun s h => slip_in L (ar_rule v (hucocks k)) ar_in (fun _ => hk_in L k (spacing_in d)) s h /\ abs_safe L (ar_rule v (hucocks k)) s h /\
       forall j, (j < 1)%nat -> hk_rate_in k (fun _ => spacing_in d) (rs_slip L (ar_rule v (hucocks k)) s h) (bsub (r_sizes (ar_rule v (hucocks k))) h j))
    (rs_rate L (ar_rule v (hucocks k))) (rs_rate_s L (ar_rule v (hucocks k))) (rs_rate_h L (ar_rule v (hucocks k))).
Proof. exact @hk_rule. Qed.
Print Assumptions C87_rule.
(** a crystal starts with the orientation asked for, if no strength model zeroes the history *)
Theorem C87_start : forall off q ms h, layout off ms -> existsb hm_zero ms = false -> get_q (crystal_init off q ms h) off = mk_orientation q.
Proof. exact @crystal_init_kept. Qed.
Print Assumptions C87_start.
(** with a Hu-Cocks model it starts with a half turn about the third axis, whatever was asked for *)
Theorem C87_start_refuted : forall off q ms h, layout off ms -> existsb hm_zero ms = true -> get_q (crystal_init off q ms h) off = Quat 0 0 0 1.
Proof. exact @crystal_init_lost. Qed.
Print Assumptions C87_start_refuted.
(** the grains of a polycrystal start with the orientations asked for *)
Theorem C87_grain_start : forall off q0 q ms h, get_q (grain_init off q0 q ms h) off = mk_orientation q.
Proof. exact @grain_init_kept. Qed.
Print Assumptions C87_grain_start.
(** and strengths with their initial values *)
Theorem C87_strength_start : forall off q pre m post h i, layout off (pre ++ m :: post) -> existsb hm_zero post = false -> (i < hm_n m)%nat ->
  crystal_init off q (pre ++ m :: post) h (hm_off m + i)%nat = hm_v m i.
Proof. exact @strength_init_kept. Qed.
Print Assumptions C87_strength_start.
(** but not those listed before a Hu-Cocks model: these start at zero *)
Theorem C87_strength_start_refuted : forall off q pre m post h i, layout off (pre ++ m :: post) -> existsb hm_zero post = true -> (i < hm_n m)%nat ->
  crystal_init off q (pre ++ m :: post) h (hm_off m + i)%nat = 0.
Proof. exact @strength_init_lost. Qed.
Print Assumptions C87_strength_start_refuted.
(** the hypotheses are met *)
Example C87_case : ds_n dsx = l_n (Lx 1) /\ (forall i, (i < hk_m hkx)%nat -> hc_phys (hk_p hkx i)) /\ hk_in (Lx 1) hkx (spacing_in dsx) hx /\
  hk_rate_in hkx (fun _ => spacing_in dsx) (fun _ => 1) hx /\ 0 <= hk_ac hkx * hk_G hkx * hk_b hkx.
Proof.
  split; [reflexivity|]. split; [intros; apply pcx_phys; [lia|lra]|]. destruct hkx_in as [A B]. split; [exact A|]. split; [exact B|]. cbn. lra.
Qed.
Example C87_step_case : exists h1, spacing_steps dsx (Lx 1) (fun _ => 1) [(1, fun _ => 1)] h1 /\ activity dsx (Lx 1) (fun _ => 1) 0 = 1.
Proof.
  assert (A : activity dsx (Lx 1) (fun _ => 1) 0 = 1) by (unfold activity, ds_J; cbn; rewrite Rabs_R1; ring).
  exists (fun _ => 1). split; [|exact A]. apply (sp_cons _ _ _ (fun _ => 1)); [lra|intros; lra| |constructor].
  intros i Hi. cbn in Hi. replace i with 0%nat by lia. rewrite spacing_rate, A. cbn [ds_K dsx]. field.
Qed.
Example C87_arrhenius_case : 0 < ar_A arx /\ 0 <= ar_g0 arx * ar_B arx * ar_F arx /\ ar_in (/ 2) (fun _ => 1).
Proof. unfold ar_F, ar_in. cbn. split; [lra|]. split; [|split_Rabs; lra]. rewrite ?Rmult_1_l, ?Rmult_1_r. unfold Rdiv. rewrite ?Rinv_1. lra. Qed.
Example C87_init_case : layout 0 [{| hm_off := 4; hm_n := 12; hm_v := fun _ => 5; hm_zero := false |}; {| hm_off := 16; hm_n := 15; hm_v := fun _ => 7; hm_zero := true |}].
Proof.
  split.
  - intros m [<-|[<-|[]]]; unfold apart; cbn; lia.
  - intros [|[|i]] [|[|j]] a b Ha Hb Hne; cbn in Ha, Hb; try discriminate; try (destruct i; discriminate); try (destruct j; discriminate); try lia; inversion Ha; inversion Hb; subst; unfold apart; cbn; lia.
Qed.
