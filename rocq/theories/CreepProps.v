(** C31 (creep law derivatives), C32 (mechanism map region), C33 (J2 creep and its update), C38 (creep + plasticity). *)
From Verif Require Import Base.
From Verif Require Import Diff.
From Verif Require Import NemlMathModel NemlMathSpec NemlMathProofs SolverModel SolverSpec SolverProofs SubstepModel SurfModel SurfSpec SurfProofs HardProofs RiProofs.
From Verif Require Import PlastModel PlastSpec PlastProofs ViscoProofs YaguchiProofs CreepModel CreepSpec CreepProofs J2CreepProofs CreepPlastProofs CreepEx.

Lemma time_zero r : (forall se ee t t' T, sc_g r se ee t T = sc_g r se ee t' T) -> (forall se ee t T, sc_gt r se ee t T = 0) -> srule_time_exact r.
Proof. intros H H0 se ee t T. rewrite H0. apply (D_ext (fun _ => sc_g r se ee 0 T)); [intros x; apply H|apply D_const]. Qed.

(** ** C31 *)
Theorem C31_power_law : forall A n, srule_exact (fun se _ _ _ => 0 < se) (PowerLawCreep A n) /\ srule_time_exact (PowerLawCreep A n).
Proof. intros A n. split; [apply power_law_exact|apply time_zero; reflexivity]. Qed.
Print Assumptions C31_power_law.
Theorem C31_normalized_power_law : forall s0 n,
  srule_exact (fun se _ _ T => 0 < se / s0 T /\ s0 T <> 0) (NormalizedPowerLawCreep s0 n) /\ srule_time_exact (NormalizedPowerLawCreep s0 n).
Proof. intros s0 n. split; [apply normalized_exact|apply time_zero; reflexivity]. Qed.
Print Assumptions C31_normalized_power_law.
Theorem C31_blackburn : forall A n beta Rg Q,
  srule_exact (fun se _ _ T => 0 < beta T * se / n T /\ n T <> 0) (BlackburnCreep A n beta Rg Q) /\ srule_time_exact (BlackburnCreep A n beta Rg Q).
Proof. intros A n beta Rg Q. split; [apply blackburn_exact|apply time_zero; reflexivity]. Qed.
Print Assumptions C31_blackburn.
Theorem C31_blackburn_temperature : forall A n beta Rg Q,
  srule_temp_exact (fun _ _ _ T => Rg <> 0 /\ T <> 0) (BlackburnCreep (fun _ => A) (fun _ => n) (fun _ => beta) Rg Q).
Proof. exact blackburn_temp. Qed.
Print Assumptions C31_blackburn_temperature.
Theorem C31_swindeman : forall C n V Q (celsius : bool), srule_exact (fun se _ _ _ => 0 < se) (SwindemanCreep C n V Q celsius) /\
  srule_time_exact (SwindemanCreep C n V Q celsius) /\
  srule_temp_exact (fun _ _ _ T => T + (if celsius then 273.15 else 0) <> 0) (SwindemanCreep C n V Q celsius).
Proof. intros. split; [apply swindeman_exact|]. split; [apply time_zero; reflexivity|apply swindeman_temp]. Qed.
Print Assumptions C31_swindeman.
Theorem C31_region_km : forall cuts A B kboltz b eps0 G celsius,
  srule_exact (fun se _ _ T => 0 < se / G T /\ G T <> 0 /\ forall c, In c cuts -> se / G T <> c) (RegionKMCreep cuts A B kboltz b eps0 G celsius) /\
  srule_time_exact (RegionKMCreep cuts A B kboltz b eps0 G celsius).
Proof. intros. split; [apply km_exact|apply time_zero; reflexivity]. Qed.
Print Assumptions C31_region_km.
Theorem C31_norton_bailey : forall A m n,
  srule_exact (fun se ee _ T => eps < se /\ eps < ee /\ m T <> 0) (NortonBaileyCreep A m n) /\
  srule_s_exact (fun se ee _ T => eps < se /\ m T <> 0) (NortonBaileyCreep A m n) /\
  flat_below_eps (NortonBaileyCreep A m n) /\ srule_time_exact (NortonBaileyCreep A m n).
Proof. intros. split; [apply norton_exact|]. split; [apply norton_s_exact|]. split; [apply norton_flat|]. apply time_zero; reflexivity. Qed.
Print Assumptions C31_norton_bailey.
Theorem C31_mukherjee : forall G A n D0 Q b k Rg,
  srule_exact (fun se _ _ T => 0 < se / G T /\ G T <> 0) (MukherjeeCreep G A n D0 Q b k Rg) /\ srule_time_exact (MukherjeeCreep G A n D0 Q b k Rg).
Proof. intros. split; [apply mukherjee_exact|apply time_zero; reflexivity]. Qed.
Print Assumptions C31_mukherjee.
(** the stress derivative of GenericCreep carries a spurious factor f(log seq) *)
Theorem C31_generic_refuted : exists f df se ee t T, (forall x, is_derive f x (df x)) /\ 0 < se /\
  ~ is_derive (fun x => sc_g (GenericCreep f df) x ee t T) se (sc_gs (GenericCreep f df) se ee t T).
Proof. exact generic_wrong. Qed.
Print Assumptions C31_generic_refuted.
Theorem C31_generic_partial : forall f df se, (forall x, is_derive f x (df x)) -> 0 < se -> forall ee t T,
  exists true_dg, is_derive (fun x => sc_g (GenericCreep f df) x ee t T) se true_dg /\
    sc_gs (GenericCreep f df) se ee t T = f (ln se) * true_dg.
Proof. exact generic_factor. Qed.
Print Assumptions C31_generic_partial.
(** 2.25Cr-1Mo: the derivative reported in each regime is that of the rate with 987.72 replaced by
    428.961 ln 10 and 5862.4 replaced by 2546.01 ln 10 (rounded constants in the code) *)
Theorem C31_minimum_creep_rate_225_partial : forall U se T, 0 < se -> U T <> 0 -> T <> 0 ->
  m225_e1 U se T = m225_e1' 987.72 U se T /\ m225_e2 U se T = m225_e2' 5862.4 U se T /\
  is_derive (fun x => m225_e1' (428.961 * ln 10) U x T) se (m225_de1 U se T) /\
  is_derive (fun x => m225_e2' (2546.01 * ln 10) U x T) se (m225_de2 U se T) /\
  (forall ee t, sc_g (MinCreep225 U) se ee t T = m225_e1 U se T /\ sc_gs (MinCreep225 U) se ee t T = m225_de1 U se T \/
                sc_g (MinCreep225 U) se ee t T = m225_e2 U se T /\ sc_gs (MinCreep225 U) se ee t T = m225_de2 U se T).
Proof.
  intros U se T Hs HU HT. split; [reflexivity|]. split; [reflexivity|]. split; [apply m225_d1; assumption|]. split; [apply m225_d2; assumption|].
  intros ee t. cbn [sc_g sc_gs MinCreep225]. unfold m225. destruct (Rlt_dec se 60); [left; auto|]. destruct (Rle_dec T (m225_switch se)); [left|right]; auto.
Qed.
Print Assumptions C31_minimum_creep_rate_225_partial.
(** dg_dT is the default zero although the coefficients depend on temperature *)
Theorem C31_power_law_temperature_refuted : exists A n, (forall T, is_derive A T 1) /\ (forall T, is_derive n T 0) /\
  forall ee t T, ~ is_derive (fun x => sc_g (PowerLawCreep A n) 1 ee t x) T (sc_gT (PowerLawCreep A n) 1 ee t T).
Proof.
  exists (fun T => T), (fun _ => 1). split; [intros; apply D_id|]. split; [intros; apply D_const|]. intros ee t T D. cbn [sc_g sc_gT PowerLawCreep] in D. unfold zero4 in D.
  assert (D2 : is_derive (fun x => x * cpow 1 1) T 1).
  { eapply D_eq; [apply D_mult; [apply D_id|apply D_const]|cbv beta]. rewrite cpow_pos, Rpower_1 by lra. ring. }
  pose proof (is_derive_unique _ _ _ D) as U1. pose proof (is_derive_unique _ _ _ D2) as U2. pose proof (eq_trans (eq_sym U1) U2). lra.
Qed.
Print Assumptions C31_power_law_temperature_refuted.
Theorem C31_blackburn_temperature_refuted : exists A n beta, (forall T, is_derive A T 1) /\ (forall T, is_derive n T 0) /\ (forall T, is_derive beta T 0) /\
  forall ee t T, ~ is_derive (fun x => sc_g (BlackburnCreep A n beta 1 0) 1 ee t x) T (sc_gT (BlackburnCreep A n beta 1 0) 1 ee t T).
Proof.
  exists (fun T => T), (fun _ => 1), (fun _ => 1). split; [intros; apply D_id|]. split; [intros; apply D_const|]. split; [intros; apply D_const|].
  intros ee t T D. cbn [sc_g sc_gT BlackburnCreep] in D.
  assert (S1 : 0 < sinh 1) by (rewrite <- sinh_0; apply sinh_lt; lra).
  assert (D2 : is_derive (fun x => x * cpow (sinh (1 * 1 / 1)) 1 * exp (- 0 / (1 * x))) T (sinh 1)).
  { apply (D_ext (fun x => x * sinh 1)).
    - intros x. replace (1 * 1 / 1) with 1 by field. rewrite cpow_pos, Rpower_1 by exact S1. unfold Rdiv. rewrite Ropp_0, Rmult_0_l, exp_0. ring.
    - eapply D_eq; [apply D_mult; [apply D_id|apply D_const]|cbv beta; ring]. }
  pose proof (is_derive_unique _ _ _ D) as U1. pose proof (is_derive_unique _ _ _ D2) as U2. pose proof (eq_trans (eq_sym U1) U2) as U.
  unfold Rdiv in U. rewrite Rmult_0_r, Rmult_0_l in U. lra.
Qed.
Print Assumptions C31_blackburn_temperature_refuted.
(** below machine epsilon the Norton-Bailey rate is constant in the stress *)
Theorem C31_norton_bailey_clamped_refuted : exists A m n se ee t T, 0 < se < eps /\
  ~ is_derive (fun x => sc_g (NortonBaileyCreep A m n) x ee t T) se (sc_gs (NortonBaileyCreep A m n) se ee t T).
Proof.
  exists (fun _ => 1), (fun _ => 1), (fun _ => 1), (eps / 2), 1, 0, 0. pose proof eps_pos. split; [lra|]. intros D.
  pose proof (norton_clamped (fun _ => 1) (fun _ => 1) (fun _ => 1) (eps / 2) 1 0 0 ltac:(lra)) as D0.
  pose proof (is_derive_unique _ _ _ D) as U1. pose proof (is_derive_unique _ _ _ D0) as U2. pose proof (eq_trans (eq_sym U1) U2) as U.
  cbn [sc_gs NortonBaileyCreep] in U. rewrite !clamp_small in U by lra.
  assert (P : forall x y, 0 < x -> 0 < cpow x y) by (intros x y Hx; rewrite cpow_pos by exact Hx; apply exp_pos).
  pose proof (P 1 (1 / 1) ltac:(lra)). pose proof (P eps (1 / 1 - 1) ltac:(lra)). pose proof eps_lt_1. rewrite clamp_big in U by lra. pose proof (P 1 ((1 - 1) / 1) ltac:(lra)). 
  assert (0 < 1 * cpow 1 (1 / 1) * cpow eps (1 / 1 - 1) * cpow 1 ((1 - 1) / 1)) by (repeat apply Rmult_lt_0_compat; lra || assumption). lra.
Qed.
Print Assumptions C31_norton_bailey_clamped_refuted.
Example C31_case : sc_gs (PowerLawCreep (fun T => T) (fun _ => 3)) 2 0 0 10 = 120 /\
  sc_g (SwindemanCreep 2 1 1 0 true) 1 0 0 300 = 2 * exp 1.
Proof.
  split.
  - cbn [sc_gs PowerLawCreep]. replace (3 - 1) with (1 + 1) by ring. rewrite cpow_pos, Rpower_plus, !Rpower_1 by lra. lra.
  - cbn [sc_g SwindemanCreep]. rewrite cpow_pos, Rpower_1 by lra. replace (- 0 / (300 + 273.15)) with 0 by lra. rewrite exp_0, Rmult_1_l. ring.
Qed.

(** ** C32 *)
(** with a single cut point every normalised activation energy gets the region it lies in *)
Theorem C32_one_cut : forall n c0 x, n <> 1%nat -> exists i, km_region n [c0] x = Some i /\ in_region [c0] i x.
Proof. exact region_one_cut. Qed.
Print Assumptions C32_one_cut.
(** any number of cuts: right below the second cut, the first cut itself excepted *)
Theorem C32_below_second_cut_partial : forall n c0 l x, n <> 1%nat -> increasing (c0 :: l) -> (x < c0 \/ (c0 < x /\ (l = [] \/ x < nth 0 l 0))) ->
  exists i, km_region n (c0 :: l) x = Some i /\ in_region (c0 :: l) i x.
Proof. exact region_below. Qed.
Print Assumptions C32_below_second_cut_partial.
Theorem C32_unique_region : forall cuts i j x, in_region cuts i x -> in_region cuts j x -> i = j.
Proof. exact in_region_unique. Qed.
Print Assumptions C32_unique_region.
(** from the second cut on the code always stays in region 1 *)
Theorem C32_beyond_second_cut_refuted : forall n c0 c1 l x, n <> 1%nat -> increasing (c0 :: c1 :: l) -> c1 <= x ->
  km_region n (c0 :: c1 :: l) x = Some 1%nat /\ ~ in_region (c0 :: c1 :: l) 1 x.
Proof. exact region_wrong. Qed.
Print Assumptions C32_beyond_second_cut_refuted.
(** and a value equal to the first of several cuts gets the last region *)
Theorem C32_first_cut_refuted : forall n c0 c1 l, n <> 1%nat -> increasing (c0 :: c1 :: l) ->
  km_region n (c0 :: c1 :: l) c0 = Some (length (c0 :: c1 :: l)) /\ in_region (c0 :: c1 :: l) 1 c0 /\ ~ in_region (c0 :: c1 :: l) (length (c0 :: c1 :: l)) c0.
Proof.
  intros n c0 c1 l Hn Hi. assert (L : c0 < c1) by (specialize (Hi 0%nat 1%nat); cbn in Hi; apply Hi; lia).
  split; [rewrite region_code by assumption; destruct (Rlt_dec c0 c0); [lra|]; destruct (Req_EM_T c0 c0); [reflexivity|contradiction]|].
  assert (R1 : in_region (c0 :: c1 :: l) 1 c0).
  { split; [cbn [length]; lia|]. split; [intros k Hk; replace k with 0%nat by lia; cbn; lra|]. intros k Hk. specialize (Hi 0%nat k). cbn [nth] in Hi. apply Hi. lia. }
  split; [exact R1|]. intros R2. pose proof (in_region_unique _ _ _ _ R1 R2) as E. cbn [length] in E. lia.
Qed.
Print Assumptions C32_first_cut_refuted.
Theorem C32_no_cuts : forall cuts x, km_region 1 cuts x = Some 0%nat.
Proof. reflexivity. Qed.
Print Assumptions C32_no_cuts.
Example C32_case : increasing [1; 2] /\ in_region [1; 2] 2 3 /\ km_region 3 [1; 2] 3 = Some 1%nat.
Proof.
  split; [|split].
  - intros i j H. destruct i as [|[|i]], j as [|[|j]]; cbn in *; lia || lra.
  - split; [cbn; lia|]. split; [intros k Hk; destruct k as [|[|k]]; cbn; lra || lia|intros k Hk; cbn in Hk; lia].
  - unfold km_region. cbn. destruct (Rlt_dec 3 1); [lra|]. destruct (Rlt_dec 1 3); [reflexivity|lra].
Qed.

(** ** C33 *)
Theorem C33_derivatives : forall P r, srule_exact P r ->
  creep_exact (fun t T s e => eps < mises s /\ eps < strain_eq e /\ P (mises s) (strain_eq e) t T) (J2Creep r).
Proof.
  intros P r H t T s e u vs ve Hs He. rewrite <- seq_mises, <- eeq_strain. apply (j2_creep_exact P r H t T s e u vs ve Hs He).
Qed.
Print Assumptions C33_derivatives.
(** at (and near) zero creep strain, for laws that are insensitive to strains below machine epsilon *)
Theorem C33_derivatives_small_strain : forall P r, srule_s_exact P r -> flat_below_eps r ->
  creep_exact (fun t T s e => eps < mises s /\ strain_eq e < eps /\ P (mises s) (strain_eq e) t T) (J2Creep r).
Proof.
  intros P r H HF t T s e u vs ve Hs He. rewrite <- seq_mises, <- eeq_strain. apply (j2_creep_exact_small P r H HF t T s e u vs ve Hs He).
Qed.
Print Assumptions C33_derivatives_small_strain.
Theorem C33_time_temperature : forall r s e t T i,
  (is_derive (fun x => sc_g r (seq s) (eeq e) x T) t (sc_gt r (seq s) (eeq e) t T) ->
   is_derive (fun x => cr_f (J2Creep r) s e x T i) t (cr_ft (J2Creep r) s e t T i)) /\
  (is_derive (fun x => sc_g r (seq s) (eeq e) t x) T (sc_gT r (seq s) (eeq e) t T) ->
   is_derive (fun x => cr_f (J2Creep r) s e t x i) T (cr_fT (J2Creep r) s e t T i)).
Proof.
  intros r s e t T i. cbn [cr_f cr_ft cr_fT J2Creep]. split; intros D; (eapply D_eq; [apply D_mult; [apply D_const|apply D_mult; [apply D_const|exact D]]|cbv beta; ring]).
Qed.
Print Assumptions C33_time_temperature.
Theorem C33_incompressible : forall r s e t T, I1 (cr_f (J2Creep r) s e t T) = 0.
Proof. exact j2_incompressible. Qed.
Print Assumptions C33_incompressible.
(** the equivalent creep rate is the scalar law at the von Mises stress and equivalent strain *)
Theorem C33_equivalent_rate : forall r s e t T, eps <= mises s -> 0 <= sc_g r (mises s) (strain_eq e) t T ->
  strain_eq (cr_f (J2Creep r) s e t T) = sc_g r (mises s) (strain_eq e) t T /\
  dot 6 s (cr_f (J2Creep r) s e t T) = sc_g r (mises s) (strain_eq e) t T * mises s.
Proof. intros r s e t T. rewrite <- seq_mises, <- eeq_strain. intros H1 H2. split; [apply j2_equivalent_rate; assumption|apply j2_power; assumption]. Qed.
Print Assumptions C33_equivalent_rate.
Theorem C33_dissipation : forall r s e t T, 0 <= sc_g r (mises s) (strain_eq e) t T -> 0 <= dot 6 s (cr_f (J2Creep r) s e t T).
Proof. intros r s e t T. rewrite <- seq_mises, <- eeq_strain. apply j2_dissipation. Qed.
Print Assumptions C33_dissipation.
Theorem C33_uniaxial : forall r x e t T, eps <= x -> let g := sc_g r x (strain_eq e) t T in
  (let f := cr_f (J2Creep r) (uni x) e t T in f 0%nat = g /\ f 1%nat = - g / 2 /\ f 2%nat = - g / 2 /\ f 3%nat = 0 /\ f 4%nat = 0 /\ f 5%nat = 0) /\
  (let f := cr_f (J2Creep r) (uni (- x)) e t T in f 0%nat = - g /\ f 1%nat = g / 2 /\ f 2%nat = g / 2 /\ f 3%nat = 0 /\ f 4%nat = 0 /\ f 5%nat = 0).
Proof. intros r x e t T H. rewrite <- eeq_strain. split; [apply j2_uniaxial_tension, H|apply j2_uniaxial_compression, H]. Qed.
Print Assumptions C33_uniaxial.
Theorem C33_pressure_independent : forall r p s e t T i, cr_f (J2Creep r) (add_pressure p s) e t T i = cr_f (J2Creep r) s e t T i.
Proof. exact j2_pressure. Qed.
Print Assumptions C33_pressure_independent.
(** update: backward Euler to the solver tolerance, with the documented tangent *)
Theorem C33_update : forall lsolve inv prm M s en T1 T0 t1 t0 x A, (1 <= miter prm)%Z ->
  cr_update lsolve inv prm M s en T1 T0 t1 t0 = Some (x, A) ->
  exists r r0, within_tolerance prm 6 r r0 /\ (forall i, r0 i = - (t1 - t0) * cr_f M s en t1 T1 i) /\
    (forall i, x i = en i + (t1 - t0) * cr_f M s x t1 T1 i + r i) /\
    exists J K, (forall i j, J i j = delta i j - (t1 - t0) * cr_fe M s x t1 T1 i j) /\ inv 6%nat J = Some K /\
      forall i j, A i j = (t1 - t0) * mm 6 K (cr_fs M s x t1 T1) i j.
Proof. exact cr_update_eq. Qed.
Print Assumptions C33_update.
Theorem C33_update_jacobian : forall P M s en T t dt, creep_exact P M -> is_jac 6 6 (fun x => P t T s x) (cr_R M s en T t dt) (cr_J M s T t dt).
Proof. exact cr_jac. Qed.
Print Assumptions C33_update_jacobian.
Theorem C33_update_tangent : forall P lsolve inv prm M s1 en T1 T0 t1 t0 x1 A, creep_exact P M -> inv_ok inv -> (1 <= miter prm)%Z ->
  cr_update lsolve inv prm M s1 en T1 T0 t1 t0 = Some (x1, A) ->
  forall (s x : R -> vec) (c : vec) u vs vx, path 6 s u vs -> path 6 x u vx -> s u = s1 -> x u = x1 -> P t1 T1 s1 x1 ->
    locally u (fun w => forall i, (i < 6)%nat -> x w i - en i - (t1 - t0) * cr_f M (s w) (x w) t1 T1 i = c i) ->
    veq 6 vx (mv 6 A vs).
Proof. exact cr_tangent_exact. Qed.
Print Assumptions C33_update_tangent.
Example C33_case : inv_ok invd /\ eps < mises (uni 1) /\
  exists x A, cr_update lsd invd prmd lin_M (uni 1) vzero 0 0 1 0 = Some (x, A) /\ x 0%nat = 2 / 3 /\ A 3%nat 3%nat = 1.
Proof.
  split; [exact invd_ok|]. split; [rewrite <- seq_mises, seq_uni, Rabs_R1; pose proof eps_lt_1; lra|].
  destruct (creep_step (uni 1) vzero ltac:(intros i Hi; reflexivity) ltac:(intros i Hi; reflexivity)) as (x & A & H & Hx & HA).
  exists x, A. split; [exact H|]. split; [rewrite Hx by lia; unfold dev_vec, uni; cbn; field|rewrite HA by lia; unfold devm, delta; cbn; ring].
Qed.

(** ** C38 *)
Theorem C38_step_equations : forall lsolve inv prm cr B sf next past sn hn un pn res, (1 <= miter prm)%Z -> energy_free B -> sf <> 0 ->
  sscp_update lsolve inv prm cr B sf next past sn hn un pn = Some res ->
  exists ep rb ec Bm r r0,
    ba_update B (with_e ep next) (with_e hn past) sn (fun i => hn (6 + i)%nat) un pn = Some rb /\
    cr (pr_s rb) (fun i => ld_e past i - hn i) (ld_T next) (ld_T past) (ld_t next) (ld_t past) = Some (ec, Bm) /\
    within_tolerance prm 6 r r0 /\
    (forall i, ep i + ec i = ld_e next i + r i / sf) /\
    (forall i, pr_s res i = pr_s rb i) /\
    (forall i, (i < 6)%nat -> pr_h res i = ep i) /\
    (forall i, pr_h res (6 + i)%nat = pr_h rb i) /\
    form_tangent inv (pr_A rb) Bm = Some (pr_A res) /\
    pr_u res = un + dot 6 (vadd (pr_s rb) sn) (vsub (ld_e next) (ld_e past)) / 2 /\
    pr_p res = pr_p rb + dot 6 (vadd (pr_s rb) sn) (fun i => ec i - (ld_e past i - hn i)) / 2.
Proof. exact sscp_eqs. Qed.
Print Assumptions C38_step_equations.
Theorem C38_tangent_series : forall inv A B Tn, inv_ok inv -> form_tangent inv A B = Some Tn ->
  forall vs vep vec_ ve, veq 6 vs (mv 6 A vep) -> veq 6 vec_ (mv 6 B vs) -> (forall i, (i < 6)%nat -> ve i = vep i + vec_ i) ->
  veq 6 vs (mv 6 Tn ve).
Proof. exact form_tangent_apply. Qed.
Print Assumptions C38_tangent_series.
Theorem C38_tangent_inverse : forall inv A Ai B Tn, inv_ok inv -> form_tangent inv A B = Some Tn -> left_inverse 6 Ai A -> left_inverse 6 A Ai ->
  left_inverse 6 (fun i j => Ai i j + B i j) Tn.
Proof. exact form_tangent_inverse. Qed.
Print Assumptions C38_tangent_inverse.
Theorem C38_jacobian : forall cr B sf next past sn hn (y : R -> vec) u vy (RJ : R -> vec * mat),
  base_tangent_at B next (with_e hn past) sn (fun i => hn (6 + i)%nat) (y u) ->
  (forall rb, ba_update B (with_e (y u) next) (with_e hn past) sn (fun i => hn (6 + i)%nat) 0 0 = Some rb ->
     creep_tangent_at cr (fun i => ld_e past i - hn i) (ld_T next) (ld_T past) (ld_t next) (ld_t past) (pr_s rb)) ->
  path 6 y u vy ->
  locally u (fun w => sscp_RJ cr B sf next past sn hn (y w) = Some (RJ w)) ->
  path 6 (fun w => fst (RJ w)) u (mv 6 (snd (RJ u)) vy).
Proof. exact sscp_jac. Qed.
Print Assumptions C38_jacobian.
Theorem C38_consistent_tangent : forall lsolve inv prm cr B sf next past sn hn un pn res, energy_free B -> inv_ok inv ->
  sscp_update lsolve inv prm cr B sf next past sn hn un pn = Some res ->
  exists x, (forall i, (i < 6)%nat -> pr_h res i = x i) /\
  forall (e ep : R -> vec) (rb : R -> pres) (ec : R -> vec * mat) (c : vec) u ve vep,
    path 6 e u ve -> path 6 ep u vep -> ep u = x ->
    base_tangent_at B next (with_e hn past) sn (fun i => hn (6 + i)%nat) x ->
    creep_tangent_at cr (fun i => ld_e past i - hn i) (ld_T next) (ld_T past) (ld_t next) (ld_t past) (pr_s res) ->
    locally u (fun w => ba_update B (with_e (ep w) next) (with_e hn past) sn (fun i => hn (6 + i)%nat) 0 0 = Some (rb w)) ->
    locally u (fun w => cr (pr_s (rb w)) (fun i => ld_e past i - hn i) (ld_T next) (ld_T past) (ld_t next) (ld_t past) = Some (ec w)) ->
    locally u (fun w => forall i, (i < 6)%nat -> ep w i + fst (ec w) i - e w i = c i) ->
    pr_s (rb u) = pr_s res /\ path 6 (fun w => pr_s (rb w)) u (mv 6 (pr_A res) ve).
Proof. exact sscp_tangent_exact. Qed.
Print Assumptions C38_consistent_tangent.
(** the history declared by the model puts the base variables first and plastic_strain after them;
    the update stores them the other way round *)
Theorem C38_layout_refuted : exists lsolve inv prm cr B sf next past sn hn res, inv_ok inv /\ energy_free B /\
  sscp_update lsolve inv prm cr B sf next past sn hn 0 0 = Some res /\ ba_nh B = 1%nat /\
  (forall i, (i < 6)%nat -> pr_h res i = ld_e past i) /\ pr_h res 6%nat = ba_init B 0%nat /\
  ~ veq 6 (sscp_plastic_strain B (pr_h res)) (pr_h res).
Proof.
  destruct hold_step as (res & H & _ & Hh & H6 & _). exists lsd, invd, prmd, (cr_update lsd invd prmd lin_M), bar, 1. eexists _, _, _, _, res.
  split; [exact invd_ok|]. split; [exact bar_free|]. split; [exact H|]. split; [reflexivity|]. split; [exact Hh|]. split; [exact H6|].
  intros E. specialize (E 5%nat ltac:(lia)). unfold sscp_plastic_strain in E. cbn [ba_nh bar] in E. change (1 + 5)%nat with 6%nat in E. rewrite H6, Hh in E by lia. unfold uni in E. cbn in E. lra.
Qed.
Print Assumptions C38_layout_refuted.
(** hence a base model with a non zero initial history starts from the wrong state *)
Theorem C38_initial_state_refuted : exists B, (0 < ba_nh B)%nat /\ sscp_h (sscp_init B) 0%nat <> ba_init B 0%nat /\ sscp_ep (sscp_init B) 0%nat <> 0.
Proof. exists bar. cbn. split; [lia|]. unfold sscp_h, sscp_ep, sscp_init. cbn. split; lra. Qed.
Print Assumptions C38_initial_state_refuted.
(** a base model without history is not affected *)
Theorem C38_layout_without_history : forall B h, ba_nh B = 0%nat -> sscp_plastic_strain B h = h /\ forall i, sscp_ep (sscp_init B) i = 0.
Proof. intros B h H. unfold sscp_plastic_strain, sscp_ep, sscp_init. rewrite H. split; [reflexivity|]. intros i. reflexivity. Qed.
Print Assumptions C38_layout_without_history.
Example C38_case : inv_ok invd /\ energy_free bar /\ exists res, sscp_update lsd invd prmd (cr_update lsd invd prmd lin_M) bar 1
    (hold (vadd (uni 1) (dev_vec (uni 1))) 1) (hold (uni 1) 0) (uni 1) bar_h 0 0 = Some res /\ veq 6 (pr_s res) (uni 1) /\ pr_p res = 2 / 3 /\ pr_A res 3%nat 3%nat = 1 / 2.
Proof.
  split; [exact invd_ok|]. split; [exact bar_free|]. destruct hold_step as (res & H & Hs & _ & _ & Hp & HA). exists res. split; [exact H|]. split; [exact Hs|]. split; [exact Hp|].
  rewrite HA by lia. unfold Kd, devm, delta. cbn. field.
Qed.
