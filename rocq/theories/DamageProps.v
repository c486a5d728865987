(** Damage laws, effective stresses, the damaged model and the Larson-Miller relation. *)
From Verif Require Import Base.
From Verif Require Import Diff.
From Verif Require Import NemlMathModel NemlMathSpec NemlMathProofs SolverModel SolverSpec SolverProofs SubstepModel SurfModel SurfSpec SurfProofs.
From Verif Require Import PlastModel PlastSpec CreepModel CreepSpec CreepProofs J2CreepProofs CreepEx.
From Verif Require Import DamageModel DamageSpec DamageProofs WorkDamageProofs EffStressProofs PrincipalProofs DamagedProofs LarsonProofs DamageEx SpectralProofs.

(** ** C34: derivatives of the damage laws *)
Theorem C34_rate_form : forall P r, rate_exact P r -> damage_exact (fun a => P (ad a) (ae a) (as_ a) (aT a) (at_ a)) (RateDamage r).
Proof. exact rate_damage_exact. Qed.
Print Assumptions C34_rate_form.
Theorem C34_classical_creep : forall A xi phi, rate_exact (fun d e s T t => 0 < vm s /\ 0 < A T /\ d < 1) (ClassicalCreepDamage A xi phi).
Proof. exact classical_exact. Qed.
Print Assumptions C34_classical_creep.
Theorem C34_modular_creep : forall P A xi phi E, es_exact P E ->
  rate_exact (fun d e s T t => P s /\ 0 < ev_of E s /\ 0 < A T /\ d < 1) (ModularCreepDamage A xi phi E).
Proof. exact modular_exact. Qed.
Print Assumptions C34_modular_creep.
Theorem C34_larson_miller : forall P Q tR dtR E, es_exact P E -> lm_rule_exact Q tR dtR ->
  rate_exact (fun d e s T t => P s /\ ev_of E s <> 0 /\ Q (ev_of E s * (1 - d)) T) (LarsonMillerDamage tR dtR E).
Proof. exact larson_exact. Qed.
Print Assumptions C34_larson_miller.
Theorem C34_combined : forall P l, (forall m, In m l -> damage_exact P m) -> damage_exact P (CombinedDamage l).
Proof. exact combined_exact. Qed.
Print Assumptions C34_combined.
(** the combined law adds the increments of its parts *)
Theorem C34_combined_increment : forall l a, dm (CombinedDamage l) a - adn a = fold_right (fun m x => (dm m a - adn a) + x) 0 l.
Proof. exact combined_increment. Qed.
Print Assumptions C34_combined_increment.
Theorem C34_standard : forall P S q, sdfun_exact P q -> (forall T, sym6 (S T)) ->
  damage_exact (fun a => P (as_ a) (ad a) (aT a) /\ exists i, (i < 6)%nat /\ plastic_increment S a i <> 0) (StandardDamage S q).
Proof. exact standard_exact. Qed.
Print Assumptions C34_standard.
Theorem C34_equivalent_plastic_strain : forall S a, dep S a = eeq (plastic_increment S a).
Proof. exact dep_eeq. Qed.
Print Assumptions C34_equivalent_plastic_strain.
Theorem C34_power_law : forall A a, sdfun_exact (fun s d T => 0 < vm s) (PowerLawDamage A a).
Proof. exact powerlaw_f_exact. Qed.
Print Assumptions C34_power_law.
Theorem C34_exponential_work : forall W0 k0 af, sdfun_exact (fun s d T => 0 < vm s /\ 0 < d + k0 T /\ W0 T <> 0) (ExponentialWorkDamage W0 k0 af).
Proof. exact expwork_f_exact. Qed.
Print Assumptions C34_exponential_work.
(** missing: negative plastic work, where the reported derivatives have the wrong sign, and zero work *)
Theorem C34_work_partial : forall S W W' n eps0 ws log, (forall T, sym6 (S T)) -> crit_exact W W' -> n <> 0 -> 0 < ws ->
  damage_exact (fun a => 0 < ad a < 1 /\ atn a < at_ a /\ 0 < plastic_work S a /\ wcrit log W (plastic_work S a * (1 - ad a) / (at_ a - atn a)) <> 0)
    (WorkDamage S W W' n eps0 ws log).
Proof. exact work_exact. Qed.
Print Assumptions C34_work_partial.
Theorem C34_work_negative_refuted : exists (D : damage) a, 0 < ad a < 1 /\ atn a < at_ a /\
  (exists S W W' n eps0 ws log, D = WorkDamage S W W' n eps0 ws log /\ (forall T, sym6 (S T)) /\ crit_exact W W' /\ 0 < ws /\ 0 < n /\ plastic_work S a < 0) /\
  is_derive (fun x => dm D (moved a (ad a) (fun i => ae a i + x * uni 1 i) (as_ a))) 0 (- dm_e D a 0%nat) /\ dm_e D a 0%nat <> 0.
Proof. exact work_de_wrong. Qed.
Print Assumptions C34_work_negative_refuted.
(** at zero stress the law does not depend on the new damage, but ddamage_dd returns the old damage *)
Theorem C34_work_zero_refuted : forall S W W' n eps0 ws log a, as_ a = vzero ->
  (forall d, dm (WorkDamage S W W' n eps0 ws log) (moved a d (ae a) (as_ a)) = adn a) /\
  dm_d (WorkDamage S W W' n eps0 ws log) a = adn a.
Proof. exact work_dd_wrong. Qed.
Print Assumptions C34_work_zero_refuted.
Example C34_case : vm (uni 100) = 100 /\ dm (RateDamage (ClassicalCreepDamage (fun _ => 200) (fun _ => 1) (fun _ => 1))) (wargs (1 / 2) (1 / 4) vzero (uni 100)) = 5 / 4 /\
  dm_d (RateDamage (ClassicalCreepDamage (fun _ => 200) (fun _ => 1) (fun _ => 1))) (wargs (1 / 2) (1 / 4) vzero (uni 100)) = 2.
Proof.
  assert (H : vm (uni 100) = 100) by (rewrite vm_seq, seq_uni; apply Rabs_pos_eq; lra). split; [exact H|].
  unfold RateDamage, ClassicalCreepDamage, wargs. cbn [dm dm_d dr dr_d ad adn ae as_ aT at_ atn]. rewrite H. rewrite !cpow_pos by lra.
  rewrite !Rpower_Ropp, Rpower_plus, !Rpower_1 by lra. split; field.
Qed.
(** the hypotheses of the work law at a concrete step *)
Example C34_work_case : 0 < ad (ba (uni 1)) < 1 /\ atn (ba (uni 1)) < at_ (ba (uni 1)) /\ plastic_work S1 (ba (uni 1)) = 1 / 3 /\ (forall T, sym6 (S1 T)) /\
  dm W4 (ba (uni 1)) = 1 / 4 /\ dm_d W4 (ba (uni 1)) = 5 / 12 /\ dm_e W4 (ba (uni 1)) 0%nat = 3 / 4 /\ dm_s W4 (ba (uni 1)) 0%nat = - 5 / 16.
Proof.
  assert (H : veq 6 (uni 1) (uni 1)) by (intros i Hi; reflexivity). change (ad (ba (uni 1))) with (1 / 4). change (at_ (ba (uni 1))) with 1. change (atn (ba (uni 1))) with 0.
  split; [lra|]. split; [lra|]. split; [apply ba_work, H|]. split; [exact S1_sym|]. split; [apply ba_dm, H|]. split; [apply ba_d, H|]. split; [rewrite ba_e by (exact H || lia)|rewrite ba_s by (exact H || lia)]; unfold uni; reflexivity.
Qed.

(** ** C35: effective stresses *)
Theorem C35_von_mises_value : forall s, vm s = mises s.
Proof. exact vm_mises. Qed.
Print Assumptions C35_von_mises_value.
Theorem C35_von_mises_scale : forall k s, vm (fun i => k * s i) = Rabs k * vm s.
Proof. exact vm_scale. Qed.
Print Assumptions C35_von_mises_scale.
Theorem C35_von_mises : es_exact (fun s => 0 < vm s) VonMisesES.
Proof. exact vonmises_exact. Qed.
Print Assumptions C35_von_mises.
Theorem C35_von_mises_homogeneous : es_homogeneous VonMisesES.
Proof. exact vonmises_hom. Qed.
Print Assumptions C35_von_mises_homogeneous.
Theorem C35_mean : es_exact (fun _ => True) MeanES.
Proof. exact mean_exact. Qed.
Print Assumptions C35_mean.
Theorem C35_mean_homogeneous : es_homogeneous MeanES.
Proof. exact mean_hom. Qed.
Print Assumptions C35_mean_homogeneous.
Theorem C35_huddleston_value : forall b s, 0 < norm2 6 s -> es_v (HuddlestonES b) s = Some (mises s * exp (b * (I1 s / norm2 6 s - 1))).
Proof. exact huddleston_value. Qed.
Print Assumptions C35_huddleston_value.
Theorem C35_huddleston : forall b, es_exact (fun s => 0 < vm s) (HuddlestonES b).
Proof. exact huddleston_exact. Qed.
Print Assumptions C35_huddleston.
Theorem C35_huddleston_homogeneous : forall b, es_homogeneous (HuddlestonES b).
Proof. exact huddleston_hom. Qed.
Print Assumptions C35_huddleston_homogeneous.
(** the maximum principal stress is the largest normal stress over all planes, and 0 when that is negative *)
Theorem C35_principal_value : forall eigv eigw s v, eig_ok eigv eigw -> es_v (MaxPrincipalES eigv eigw) s = Some v -> exists l, top s l /\ v = Rmax 0 l.
Proof. exact principal_value. Qed.
Print Assumptions C35_principal_value.
Theorem C35_principal : forall eigv eigw, eig_ok eigv eigw ->
  es_exact (fun s => exists v, eigv s = Some v /\ (v 2%nat < 0 \/ (0 < v 2%nat /\ v 1%nat < v 2%nat))) (MaxPrincipalES eigv eigw).
Proof. exact principal_exact. Qed.
Print Assumptions C35_principal.
Theorem C35_principal_homogeneous : forall eigv eigw, eig_ok eigv eigw -> es_homogeneous (MaxPrincipalES eigv eigw).
Proof. exact principal_hom. Qed.
Print Assumptions C35_principal_homogeneous.
(** the contract of the eigenvalue routines is satisfiable *)
Theorem C35_eigen_contract_met : eig_ok eigv_of eigw_of.
Proof. exact eig_of_ok. Qed.
Print Assumptions C35_eigen_contract_met.
Theorem C35_max_value : forall l s v, es_v (MaxSeveralES l) s = Some v ->
  (exists m, In m l /\ es_v m s = Some v) /\ (forall m, In m l -> exists w, es_v m s = Some w /\ w <= v).
Proof. exact max_value. Qed.
Print Assumptions C35_max_value.
Theorem C35_max_defined : forall l s, l <> [] -> (forall m, In m l -> es_v m s <> None) -> es_v (MaxSeveralES l) s <> None.
Proof. exact max_defined. Qed.
Print Assumptions C35_max_defined.
Theorem C35_max : forall P l, (forall m, In m l -> es_exact P m) ->
  es_exact (fun s => P s /\ exists k m v, nth_error l k = Some m /\ es_v m s = Some v /\
              forall j m', j <> k -> nth_error l j = Some m' -> exists w, es_v m' s = Some w /\ w < v) (MaxSeveralES l).
Proof. exact max_exact. Qed.
Print Assumptions C35_max.
Theorem C35_max_homogeneous : forall l, (forall m, In m l -> es_homogeneous m) -> es_homogeneous (MaxSeveralES l).
Proof. exact max_hom. Qed.
Print Assumptions C35_max_homogeneous.
Theorem C35_sum : forall P ms ws E, SumSeveralES ms ws = Some E -> (forall m, In m ms -> es_exact P m) -> es_exact P E.
Proof. exact sumseveral_exact. Qed.
Print Assumptions C35_sum.
Theorem C35_sum_homogeneous : forall ms ws E, SumSeveralES ms ws = Some E -> (forall m, In m ms -> es_homogeneous m) -> es_homogeneous E.
Proof. exact sum_hom. Qed.
Print Assumptions C35_sum_homogeneous.
Theorem C35_sum_value : forall l s, (forall m w, In (m, w) l -> es_v m s <> None) -> forall d, sum_v l s = Some (rsum (length l) (fun i => let (m, w) := nth i l (MeanES, 0) in w * match es_v m s with Some v => v | None => d end)).
Proof. exact sum_value_aux. Qed.
Print Assumptions C35_sum_value.
(** an empty list of measures is accepted by the constructor and read out of bounds *)
Theorem C35_max_empty_refuted : forall s, es_v (MaxSeveralES []) s = None /\ es_d (MaxSeveralES []) s = None.
Proof. intros s. split; reflexivity. Qed.
Print Assumptions C35_max_empty_refuted.
(** for a hydrostatic stress the Huddleston gradient divides by the second deviatoric invariant, which is 0 *)
Theorem C35_huddleston_hydrostatic_refuted : forall p, p <> 0 -> let s i := if Nat.ltb i 3 then p else 0 in
  norm2 6 s <> 0 /\ hud_ss s <> 0 /\ I2 (dev_vec s) = 0.
Proof.
  intros p Hp s. assert (P : 0 < dot 6 s s). { unfold dot, s. cbn. pose proof (Rlt_0_sqr p Hp) as Q. unfold Rsqr in Q. lra. }
  assert (N : 0 < norm2 6 s) by (apply sqrt_lt_R0, P). rewrite hud_ss_norm, hud_I2p. split; [lra|]. split; [lra|].
  assert (V : vm s = 0) by (unfold vm, s; cbn; transitivity (sqrt 0); [f_equal; field|apply sqrt_0]). rewrite V. field.
Qed.
Print Assumptions C35_huddleston_hydrostatic_refuted.
Example C35_case : es_v (MaxSeveralES [VonMisesES; MeanES]) (uni 90) = Some 90 /\ es_v MeanES (uni 90) = Some 30 /\ es_v VonMisesES (uni 90) = Some 90 /\ 0 < vm (uni 90) /\
  exists E, SumSeveralES [VonMisesES; MeanES] [2; 3] = Some E /\ es_v E (uni 90) = Some 270.
Proof.
  assert (H : vm (uni 90) = 90) by (rewrite vm_seq, seq_uni; apply Rabs_pos_eq; lra).
  assert (M : es_v MeanES (uni 90) = Some 30) by (cbn; f_equal; unfold uni; cbn; field).
  assert (V : es_v VonMisesES (uni 90) = Some 90) by (cbn; rewrite H; reflexivity).
  split. { unfold MaxSeveralES. cbn [es_v]. unfold msel. rewrite V, M. destruct (Rlt_dec 90 30); [lra|reflexivity]. }
  split; [exact M|]. split; [exact V|]. split; [lra|]. eexists. split; [reflexivity|]. cbn [es_v combine sum_v]. rewrite V, M. f_equal. ring.
Qed.
Example C35_principal_case : exists v, es_v (MaxPrincipalES eigv_of eigw_of) (uni 90) = Some v /\ v = 90.
Proof.
  destruct (eig_of_ok (uni 90)) as (v & w & Hv & Hw & _). unfold MaxPrincipalES. cbn [es_v]. rewrite Hv. eexists. split; [reflexivity|].
  assert (TT : top (uni 90) 90).
  { assert (N : forall n, normal_stress (uni 90) n = 90 * (n 0%nat * n 0%nat)) by (intros n; unfold normal_stress, uni; tab; r2ring).
    split; [exists (fun i => if Nat.eqb i 0 then 1 else 0); split; [unfold unit3; cbn; ring|rewrite N; cbn; ring]|].
    intros n Hn. rewrite N. unfold unit3 in Hn. cbn in Hn. pose proof (Rle_0_sqr (n 1%nat)) as Q1. pose proof (Rle_0_sqr (n 2%nat)) as Q2. unfold Rsqr in Q1, Q2. lra. }
  assert (E : v 2%nat = 90) by (apply (top_unique (uni 90)); [apply (eig_is_top _ _ _ _ eig_of_ok Hv)|exact TT]).
  rewrite E. destruct (Rlt_dec 90 0); lra.
Qed.

(** ** C36: the damaged model *)
Theorem C36_step_equations : forall lsolve inv prm k C B D next past sn hn un pn res, (1 <= miter prm)%Z -> ~ removed k (hn 0%nat) ->
  dmg_update lsolve inv prm k C B D next past sn hn un pn = Some res ->
  exists x rb r r0, let w := x 6%nat in
    ba_update B next past (fun i => sn i / (1 - hn 0%nat)) (fun i => hn (S i)) un pn = Some rb /\
    within_tolerance prm 7 r r0 /\
    (forall i, (i < 6)%nat -> x i = (1 - w) * pr_s rb i + r i) /\
    w = dm D (dargs_of next past w (hn 0%nat) (fun i => x i / (1 - w)) (fun i => sn i / (1 - hn 0%nat))) + r 6%nat /\
    (removed k w -> res = ekill_update C (kd_sfact k) next hn un pn) /\
    (~ removed k w -> (forall i, pr_s res i = (1 - w) * pr_s rb i) /\ pr_h res 0%nat = w /\ (forall i, pr_h res (S i) = pr_h rb i) /\
       pr_u res = pr_u rb /\ pr_p res = pr_p rb /\
       dmg_tangent inv D (dargs_of next past w (hn 0%nat) (fun i => (1 - w) * pr_s rb i / (1 - w)) (fun i => sn i / (1 - hn 0%nat))) (pr_A rb) = Some (pr_A res)).
Proof. exact dmg_eqs. Qed.
Print Assumptions C36_step_equations.
Theorem C36_jacobian : forall P B D next past sn hn un pn (x : R -> vec) (RJ : R -> vec * mat) u vx, damage_exact P D ->
  path 7 x u vx -> x u 6%nat <> 1 -> P (dargs_of next past (x u 6%nat) (hn 0%nat) (eff_s (x u) (x u 6%nat)) (eff_s sn (hn 0%nat))) ->
  (forall y, dmg_RJ B D next past sn hn un pn (x y) = Some (RJ y)) ->
  path 7 (fun y => fst (RJ y)) u (mv 7 (snd (RJ u)) vx).
Proof. exact dmg_jac. Qed.
Print Assumptions C36_jacobian.
Theorem C36_tangent_formula : forall inv D a Ap A, inv_ok inv -> dmg_tangent inv D a Ap = Some A ->
  ad a <> 1 -> let k1 := 1 - 1 / (1 - ad a) * dot 6 (dm_s D a) (as_ a) - dm_d D a in k1 <> 0 ->
  forall vs ve vw, (forall i, (i < 6)%nat -> vs i = (1 - ad a) * mv 6 Ap ve i - as_ a i * vw) ->
    k1 * vw = dot 6 (dm_e D a) ve + dot 6 (dm_s D a) vs / (1 - ad a) -> veq 6 vs (mv 6 A ve).
Proof. exact dmg_tangent_solves. Qed.
Print Assumptions C36_tangent_formula.
Theorem C36_consistent_tangent : forall P lsolve inv prm k C B D next past sn hn un pn res, (1 <= miter prm)%Z -> damage_exact P D -> inv_ok inv -> energy_free B ->
  ~ removed k (hn 0%nat) -> dmg_update lsolve inv prm k C B D next past sn hn un pn = Some res -> pr_h res 0%nat <> 1 ->
  forall (e : R -> vec) (w : R -> R) (rb : R -> pres) c u ve vw,
  let s x := fun i => (1 - w x) * pr_s (rb x) i in
  let a x := dargs_of (with_e (e x) next) past (w x) (hn 0%nat) (fun i => s x i / (1 - w x)) (fun i => sn i / (1 - hn 0%nat)) in
  path 6 e u ve -> e u = ld_e next -> is_derive w u vw -> w u = pr_h res 0%nat -> P (a u) ->
  1 - 1 / (1 - w u) * dot 6 (dm_s D (a u)) (as_ (a u)) - dm_d D (a u) <> 0 ->
  base_tangent_at B next past (fun i => sn i / (1 - hn 0%nat)) (fun i => hn (S i)) (e u) ->
  locally u (fun x => ba_update B (with_e (e x) next) past (fun i => sn i / (1 - hn 0%nat)) (fun i => hn (S i)) 0 0 = Some (rb x)) ->
  locally u (fun x => w x - dm D (a x) = c) ->
  (forall i, s u i = pr_s res i) /\ path 6 s u (mv 6 (pr_A res) ve).
Proof. exact dmg_update_tangent. Qed.
Print Assumptions C36_consistent_tangent.
(** an undamaged point starts from the guess of the law, a damaged one from its damage: if the starting point solves the equations it is the result *)
Theorem C36_start_value : forall lsolve inv prm k C B D next past sn hn un pn rb w0 res, (1 <= miter prm)%Z -> 0 < atol prm -> ~ removed k (hn 0%nat) -> ~ removed k w0 ->
  (hn 0%nat = 0 -> w0 = dm_init D) -> (hn 0%nat <> 0 -> w0 = hn 0%nat) ->
  ba_update B next past (fun i => sn i / (1 - hn 0%nat)) (fun i => hn (S i)) un pn = Some rb ->
  (forall i, (i < 6)%nat -> sn i = (1 - w0) * pr_s rb i) ->
  w0 = dm D (dargs_of next past w0 (hn 0%nat) (fun i => (if Nat.eqb i 6 then w0 else sn i) / (1 - w0)) (fun i => sn i / (1 - hn 0%nat))) ->
  dmg_update lsolve inv prm k C B D next past sn hn un pn = Some res -> pr_h res 0%nat = w0.
Proof. exact dmg_start. Qed.
Print Assumptions C36_start_value.
(** a step of an elastic bar with work damage, in which the damage grows from 0 to 1/4 *)
Example C36_case : inv_ok invb /\ energy_free bar /\ ~ removed keep (bhn 0%nat) /\ (1 <= miter prmd)%Z /\
  1 - 1 / (1 - ad (ba (uni 1))) * dot 6 (dm_s W4 (ba (uni 1))) (as_ (ba (uni 1))) - dm_d W4 (ba (uni 1)) = 1 /\
  exists res, dmg_update nols invb prmd keep S1 bar W4 bnext bpast bsn bhn 0 0 = Some res /\ pr_h res 0%nat = 1 / 4 /\ veq 6 (pr_s res) (uni (3 / 4)) /\
    pr_A res 0%nat 0%nat = 0 /\ pr_A res 1%nat 1%nat = 3 / 4.
Proof.
  split; [exact invb_ok|]. split; [exact bar_free|]. split; [unfold removed, keep, bhn; cbn; lra|]. split; [unfold prmd, miter; lia|]. split; [apply ba_k1; intros i Hi; reflexivity|].
  destruct b_step as (res & H & H0 & _ & Hs & HA). exists res. split; [exact H|]. split; [exact H0|]. split; [exact Hs|]. rewrite !HA by lia. cbn. unfold delta. cbn. split; [reflexivity|ring].
Qed.

(** ** C37: removal of a material point *)
Theorem C37_removed_response : forall C sf next hn un pn, dead C sf hn next (ekill_update C sf next hn un pn).
Proof. exact ekill_dead. Qed.
Print Assumptions C37_removed_response.
Theorem C37_removed_next : forall lsolve inv prm k C B D next past sn hn un pn, removed k (hn 0%nat) ->
  dmg_update lsolve inv prm k C B D next past sn hn un pn = Some (ekill_update C (kd_sfact k) next hn un pn).
Proof. exact dead_step. Qed.
Print Assumptions C37_removed_next.
(** for a threshold of at most 1, every later update of a removed point, whatever the loads, returns the reduced elastic response; the stored energy is moved to dissipation once *)
Theorem C37_irreversible : forall lsolve inv prm k C B D, kd_dkill k <= 1 -> forall l past sn hn un pn, removed k (hn 0%nat) ->
  exists rs, drun (dmg_update lsolve inv prm k C B D) past sn hn un pn l = Some rs /\
    length rs = length l /\
    forall i n r, nth_error l i = Some n -> nth_error rs i = Some r ->
      dead C (kd_sfact k) hn n r /\ pr_u r = Rmin un 0 /\ pr_p r = pn + Rmax un 0.
Proof. exact dead_forever. Qed.
Print Assumptions C37_irreversible.
Theorem C37_energy : forall C sf next hn un pn, let r := ekill_update C sf next hn un pn in pr_u r + pr_p r = un + pn /\ pn <= pr_p r.
Proof. exact dead_energy. Qed.
Print Assumptions C37_energy.
(** the element deletion flag is raised for a removed point exactly when the threshold is below 1 *)
Theorem C37_delete_flag : forall C sf k next hn un pn, dmg_del k (pr_h (ekill_update C sf next hn un pn)) = true <-> kd_dkill k < 1.
Proof. exact del_flag. Qed.
Print Assumptions C37_delete_flag.
(** with the threshold 1 the point is removed at damage 1 but never flagged for deletion *)
Theorem C37_delete_flag_refuted : exists k C sf next hn un pn, kd_ekill k = true /\ kd_dkill k = 1 /\ removed k (pr_h (ekill_update C sf next hn un pn) 0%nat) /\
  dmg_del k (pr_h (ekill_update C sf next hn un pn)) = false.
Proof.
  exists {| kd_ekill := true; kd_dkill := 1; kd_sfact := 1000 |}, S1, 1000, bnext, bhn, 0, 0. split; [reflexivity|]. split; [reflexivity|].
  split; [unfold removed; cbn; split; [reflexivity|lra]|]. unfold dmg_del, dmg_get. cbn. destruct (Rlt_dec 1 1); [lra|reflexivity].
Qed.
Print Assumptions C37_delete_flag_refuted.
(** with a threshold above 1 the stored damage 1 is below the threshold, so the removed point is updated again as if intact (and then divides by 1 - 1) *)
Theorem C37_threshold_above_one_refuted : forall C sf k next hn un pn, 1 < kd_dkill k -> ~ removed k (pr_h (ekill_update C sf next hn un pn) 0%nat).
Proof. exact not_dead_above_one. Qed.
Print Assumptions C37_threshold_above_one_refuted.
Example C37_case : dmg_update nols invb prmd kill S1 bar W4 bnext bpast bsn bhn 2 3 = Some (ekill_update S1 1000 bnext bhn 2 3) /\
  kd_dkill kill <= 1 /\ removed kill (pr_h (ekill_update S1 1000 bnext bhn 2 3) 0%nat) /\ pr_u (ekill_update S1 1000 bnext bhn 2 3) = 0 /\ pr_p (ekill_update S1 1000 bnext bhn 2 3) = 5.
Proof.
  split; [exact b_kill|]. split; [cbn; lra|]. split; [unfold removed; cbn; split; [reflexivity|lra]|]. unfold ekill_update. cbn [pr_u pr_p]. destruct (Rlt_dec 0 2); [split; [reflexivity|ring]|lra].
Qed.

(** ** C56: damage does not heal *)
Theorem C56_rate_laws : forall r a, 0 <= dr r (ad a) (ae a) (as_ a) (aT a) (at_ a) -> atn a <= at_ a -> adn a <= dm (RateDamage r) a.
Proof. exact rate_heal. Qed.
Print Assumptions C56_rate_laws.
Theorem C56_classical_rate : forall A xi phi d e s T t, 0 < A T -> d <= 1 -> 0 <= dr (ClassicalCreepDamage A xi phi) d e s T t.
Proof. exact classical_rate. Qed.
Print Assumptions C56_classical_rate.
Theorem C56_modular_rate : forall A xi phi E d e s T t, 0 < A T -> 0 <= ev_of E s -> d <= 1 -> 0 <= dr (ModularCreepDamage A xi phi E) d e s T t.
Proof. exact modular_rate. Qed.
Print Assumptions C56_modular_rate.
Theorem C56_larson_miller_rate : forall tR dtR E d e s T t, (ev_of E s <> 0 -> 0 < tR (ev_of E s * (1 - d)) T) -> 0 <= dr (LarsonMillerDamage tR dtR E) d e s T t.
Proof. exact larson_rate. Qed.
Print Assumptions C56_larson_miller_rate.
Theorem C56_standard : forall S q a, 0 <= sf_f q (as_ a) (ad a) (aT a) -> adn a <= dm (StandardDamage S q) a.
Proof. exact standard_heal. Qed.
Print Assumptions C56_standard.
Theorem C56_power_law : forall A a s d T, 0 <= A T -> 0 <= sf_f (PowerLawDamage A a) s d T.
Proof. exact powerlaw_nonneg. Qed.
Print Assumptions C56_power_law.
Theorem C56_exponential_work : forall W0 k0 af s d T, 0 < W0 T -> 0 <= sf_f (ExponentialWorkDamage W0 k0 af) s d T.
Proof. exact expwork_nonneg. Qed.
Print Assumptions C56_exponential_work.
Theorem C56_work : forall S W W' n eps0 ws log a, 0 <= n -> 0 < ws -> (forall x, 0 < wcrit log W x) -> adn a <= dm (WorkDamage S W W' n eps0 ws log) a.
Proof. exact work_heal. Qed.
Print Assumptions C56_work.
Theorem C56_combined : forall l a, (forall m, In m l -> adn a <= dm m a) -> adn a <= dm (CombinedDamage l) a.
Proof. exact combined_heal. Qed.
Print Assumptions C56_combined.
(** an update lowers the damage by at most the residual of the Newton solve *)
Theorem C56_update : forall lsolve inv prm k C B D next past sn hn un pn res, (1 <= miter prm)%Z -> ~ removed k (hn 0%nat) -> hn 0%nat <= 1 ->
  (forall a, adn a = hn 0%nat -> ad a <= 1 -> aT a = ld_T next -> at_ a = ld_t next -> atn a = ld_t past -> adn a <= dm D a) ->
  dmg_update lsolve inv prm k C B D next past sn hn un pn = Some res ->
  exists r r0, within_tolerance prm 7 r r0 /\ hn 0%nat - norm2 7 r <= pr_h res 0%nat.
Proof. exact step_no_healing. Qed.
Print Assumptions C56_update.
Example C56_case : (forall a, adn a <= dm W4 a) /\ exists res, dmg_update nols invb prmd keep S1 bar W4 bnext bpast bsn bhn 0 0 = Some res /\ bhn 0%nat < pr_h res 0%nat.
Proof.
  split; [intros a; apply work_heal; [lra|lra|intros x; unfold wcrit; lra]|]. destruct b_step as (res & H & H0 & _). exists res. split; [exact H|]. rewrite H0. cbn. lra.
Qed.

(** ** C39: the Larson-Miller relation *)
(** the stress for the computed rupture time is the given stress, up to the tolerance of the solve in log10 of stress *)
Theorem C39_roundtrip : forall lsolve prm f f' C s T t, (1 <= miter prm)%Z -> 0 < s -> T <> 0 -> lm_tR lsolve prm f f' C s T = Some t ->
  0 < t /\ exists r r0, within_tolerance prm 1 (fun _ => r) r0 /\ lm_sR f C t T = s * cpow 10 (- r).
Proof. exact lm_roundtrip. Qed.
Print Assumptions C39_roundtrip.
(** for an exact solve *)
Theorem C39_inverse_stress : forall f C s T x, 0 < s -> T <> 0 -> f x = log10 s -> lm_sR f C (cpow 10 (x / T - C)) T = s.
Proof. exact lm_exact_inverse. Qed.
Print Assumptions C39_inverse_stress.
Theorem C39_inverse_time : forall f C t T x, 0 < t -> T <> 0 -> (forall a b, f a = f b -> a = b) -> f x = log10 (lm_sR f C t T) -> cpow 10 (x / T - C) = t.
Proof. exact lm_exact_inverse2. Qed.
Print Assumptions C39_inverse_time.
Theorem C39_life_decreases : forall f C s1 s2 T x1 x2, 0 < s1 -> s1 < s2 -> 0 < T -> (forall a b, a < b -> f b < f a) -> f x1 = log10 s1 -> f x2 = log10 s2 ->
  cpow 10 (x2 / T - C) < cpow 10 (x1 / T - C).
Proof. exact lm_life_decreasing. Qed.
Print Assumptions C39_life_decreases.
Theorem C39_stress_decreases : forall f C t1 t2 T, 0 < t1 -> t1 < t2 -> 0 < T -> (forall a b, a < b -> f b < f a) -> lm_sR f C t2 T < lm_sR f C t1 T.
Proof. exact lm_stress_decreasing. Qed.
Print Assumptions C39_stress_decreases.
(** dtR_ds is the derivative of the rupture time along any continuous branch of exact solutions *)
Theorem C39_derivative : forall f f' C T (x : R -> R) s, (forall y, is_derive f y (f' y)) -> 0 < s -> T <> 0 -> f' (x s) <> 0 ->
  continuous x s -> locally s (fun q => f (x q) = log10 q) ->
  is_derive (fun q => cpow 10 (x q / T - C)) s (cpow 10 (x s / T - C) / (T * s * f' (x s))).
Proof. exact lm_rate_exact. Qed.
Print Assumptions C39_derivative.
(** the code's tR and dtR_ds use the same solution: *)
Theorem C39_functions : forall lsolve prm f f' C s T x, lm_solve lsolve prm f f' s = Some x ->
  lm_tR lsolve prm f f' C s T = Some (cpow 10 (x / T - C)) /\ lm_dtR lsolve prm f f' C s T = Some (cpow 10 (x / T - C) / (T * s * f' x)).
Proof. intros * H. unfold lm_tR, lm_dtR. rewrite H. split; reflexivity. Qed.
Print Assumptions C39_functions.
Example C39_case : let f x := 7 - x / 10000 in let f' (_ : R) := - / 10000 in (forall y, is_derive f y (f' y)) /\ (forall a b, a < b -> f b < f a) /\
  lm_solve nols prmd f f' 100 = Some 50000 /\ f 50000 = log10 100 /\ lm_tR nols prmd f f' 20 100 1000 = Some (cpow 10 30) /\ lm_sR f 20 (cpow 10 30) 1000 = 100 /\
  continuous (fun s => 10000 * (7 - log10 s)) 100 /\ (forall s, f (10000 * (7 - log10 s)) = log10 s).
Proof.
  intros f f'. assert (L2 : log10 100 = 2). { replace 100 with (10 * 10) by ring. unfold log10. rewrite ln_mult by lra. pose proof ln10_pos. field. lra. }
  split. { intros y. unfold f, f'. apply (D_ext (fun x => 7 - x * / 10000)); [intros x; reflexivity|]. eapply D_eq; [apply D_minus; [apply D_const|apply D_mult; [apply D_id|apply D_const]]|]. cbv beta. ring. }
  split; [intros a b H; unfold f; lra|].
  assert (HS : lm_solve nols prmd f f' 100 = Some 50000).
  { unfold lm_solve. rewrite (newton_at_init 1 (fun _ => 50000) (lm_RJ f f' 100) nols prmd _ _ eq_refl); [reflexivity| |unfold prmd, miter; lia].
    rewrite norm1. rewrite L2. unfold f. replace (2 - (7 - 50000 / 10000)) with 0 by field. rewrite Rabs_R0. unfold prmd, atol. lra. }
  split; [exact HS|]. split; [rewrite L2; unfold f; lra|].
  split. { unfold lm_tR. rewrite HS. do 2 f_equal. field. }
  split. { unfold lm_sR. rewrite log_pow10. unfold f. replace (7 - 1000 * (20 + 30) / 10000) with (log10 100) by (rewrite L2; field). apply pow10_log. lra. }
  split. { apply (ex_derive_continuous (fun s => 10000 * (7 - log10 s))). eexists. apply D_mult; [apply D_const|]. apply D_minus; [apply D_const|]. apply (D_log10 (fun s => s)); [apply D_id|lra]. }
  intros s. unfold f. field.
Qed.
