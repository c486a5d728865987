From Verif Require Import Base.
From Verif Require Import Diff.
From Verif Require Import NemlMathModel NemlMathSpec NemlMathProofs SolverModel SolverSpec SolverProofs SubstepModel SurfModel SurfSpec SurfProofs HardProofs RiProofs.
From Verif Require Import PlastModel PlastSpec PlastProofs ViscoProofs YaguchiProofs CreepModel CreepSpec CreepProofs J2CreepProofs DamageModel DamageSpec DamageProofs.

Lemma wk_work S a : 0 < ad a -> dot 6 (as_ a) (wk_dp S a (Rabs (ad a))) = plastic_work S a.
Proof. intros H. rewrite Rabs_pos_eq by lra. reflexivity. Qed.
Lemma workrate_pos S ws a : 0 < ad a -> ad a < 1 -> 0 < plastic_work S a -> atn a < at_ a ->
  workrate S ws a (Rabs (ad a)) = plastic_work S a * (1 - ad a) / (at_ a - atn a) * ws.
Proof.
  intros H0 H1 Hw Ht. unfold workrate. destruct (Rle_dec (at_ a - atn a) 0); [lra|]. rewrite wk_work by exact H0. rewrite (Rabs_pos_eq (ad a)) by lra.
  f_equal. rewrite Rabs_pos_eq; [field; lra|]. apply Rmult_le_pos; [|lra]. left. apply Rdiv_lt_0_compat; lra.
Qed.
Lemma D_work S a d e s u vd ve vs : sym6 (S (aT a)) -> is_derive d u vd -> path 6 e u ve -> path 6 s u vs ->
  let b := moved a (d u) (e u) (s u) in
  is_derive (fun x => plastic_work S (moved a (d x) (e x) (s x))) u
    (dot 6 (s u) (mv 6 (S (aT a)) (s u)) * vd + dot 6 (s u) ve + dot 6 (fun i => wk_dp S b (d u) i - (1 - d u) * mv 6 (S (aT a)) (s u) i) vs).
Proof.
  intros HS Hd He Hs b. unfold plastic_work. cbn [ad adn ae aen as_ asn aT moved].
  pose (vp := fun i => ve i - mv 6 (S (aT a)) (fun k => vs k * (1 - d u) - s u k * vd) i).
  assert (Pp : path 6 (fun x i => e x i - aen a i - mv 6 (S (aT a)) (fun k => s x k * (1 - d x) - asn a k * (1 - adn a)) i) u vp).
  { intros i Hi. unfold vp. eapply D_eq; [apply D_minus; [apply D_minus; [apply (He i Hi)|apply D_const]|]|].
    - unfold mv. apply D_rsum. intros j Hj. apply D_mult; [apply D_const|]. apply D_minus; [|apply D_const].
      apply D_mult; [apply (Hs j Hj)|]. apply D_minus; [apply D_const|exact Hd].
    - cbv beta. unfold mv. rewrite Rminus_0_r. f_equal. apply rsum_ext. intros; ring. }
  eapply D_eq; [apply (D_dot 6 s (fun x i => e x i - aen a i - mv 6 (S (aT a)) (fun k => s x k * (1 - d x) - asn a k * (1 - adn a)) i)); [exact Hs|exact Pp]|cbv beta].
  assert (E1 : dot 6 (s u) vp = dot 6 (s u) ve - (1 - d u) * dot 6 (mv 6 (S (aT a)) (s u)) vs + vd * dot 6 (s u) (mv 6 (S (aT a)) (s u))).
  { rewrite <- (sym_dot_mv (S (aT a)) (s u) vs HS). unfold dot. rewrite <- !rsum_scal, <- rsum_minus, <- rsum_plus. apply rsum_ext. intros i Hi.
    unfold vp. replace (mv 6 (S (aT a)) (fun k => vs k * (1 - d u) - s u k * vd) i) with ((1 - d u) * mv 6 (S (aT a)) vs i - vd * mv 6 (S (aT a)) (s u) i); [ring|].
    unfold mv. rewrite <- !rsum_scal, <- rsum_minus. apply rsum_ext. intros; ring. }
  rewrite E1. assert (E2 : dot 6 (fun i => wk_dp S b (d u) i - (1 - d u) * mv 6 (S (aT a)) (s u) i) vs =
    dot 6 vs (fun i => e u i - aen a i - mv 6 (S (aT a)) (fun k => s u k * (1 - d u) - asn a k * (1 - adn a)) i) - (1 - d u) * dot 6 (mv 6 (S (aT a)) (s u)) vs).
  { unfold dot. rewrite <- rsum_scal, <- rsum_minus. apply rsum_ext. intros i Hi. unfold wk_dp, vsub. cbn [ad adn ae aen as_ asn aT moved b]. ring. }
  rewrite E2. ring.
Qed.
Lemma D_wcrit log W W' (y : R -> R) u v : crit_exact W W' -> is_derive y u v -> 0 < y u ->
  is_derive (fun x => wcrit log W (y x)) u (dwcrit log W W' (y u) * v).
Proof.
  intros HW Dy Hy. unfold wcrit, dwcrit. destruct log.
  - assert (D : is_derive (fun x => W (log10 (y x))) u (v / (y u * ln 10) * W' (log10 (y u)))).
    { eapply D_eq; [apply (D_comp W (fun x => log10 (y x))); [apply D_log10; [exact Dy|exact Hy]|apply HW]|cbv beta; ring]. }
    eapply D_eq; [apply D_pow10; exact D|cbv beta]. pose proof ln10_pos. field. split; lra.
  - eapply D_eq; [apply (D_comp W y); [exact Dy|apply HW]|cbv beta; ring].
Qed.
Lemma work_exact S W W' n eps0 ws log : (forall T, sym6 (S T)) -> crit_exact W W' -> n <> 0 -> 0 < ws ->
  damage_exact (fun a => 0 < ad a < 1 /\ atn a < at_ a /\ 0 < plastic_work S a /\ wcrit log W (plastic_work S a * (1 - ad a) / (at_ a - atn a)) <> 0)
    (WorkDamage S W W' n eps0 ws log).
Proof.
  intros HS HW Hn Hws a d e s u vd ve vs Hd He Hs b (H01 & Ht & Hw & Hc). 
  pose proof (D_work S a d e s u vd ve vs (HS _) Hd He Hs) as Dw. cbv zeta in Dw. fold b in Dw.
  set (dW := dot 6 (s u) (mv 6 (S (aT a)) (s u)) * vd + dot 6 (s u) ve + dot 6 (fun i => wk_dp S b (d u) i - (1 - d u) * mv 6 (S (aT a)) (s u) i) vs) in *.
  change (ad b) with (d u) in *. change (at_ b) with (at_ a) in *. change (atn b) with (atn a) in *.
  set (dt := at_ a - atn a) in *. assert (Hdt : 0 < dt) by (unfold dt; lra).
  pose (y := fun x => plastic_work S (moved a (d x) (e x) (s x)) * (1 - d x) / dt).
  assert (Dy : is_derive y u ((dW * (1 - d u) - plastic_work S b * vd) / dt)).
  { unfold y. eapply D_eq; [apply D_div; [apply D_mult; [exact Dw|apply D_minus; [apply D_const|exact Hd]]|apply D_const|lra]|cbv beta].
    change (plastic_work S (moved a (d u) (e u) (s u))) with (plastic_work S b). field. lra. }
  assert (Hy : 0 < y u). { unfold y. change (plastic_work S (moved a (d u) (e u) (s u))) with (plastic_work S b). apply Rdiv_lt_0_compat; [|lra]. apply Rmult_lt_0_compat; lra. }
  change (plastic_work S b * (1 - d u) / dt) with (y u) in Hc.
  pose proof (D_wcrit log W W' y u _ HW Dy Hy) as DW.
  assert (LW : forall x, 0 < d x < 1 -> 0 < plastic_work S (moved a (d x) (e x) (s x)) -> workrate S ws (moved a (d x) (e x) (s x)) (Rabs (d x)) = y x * ws).
  { intros x Hx Hp. pose proof (workrate_pos S ws (moved a (d x) (e x) (s x))) as E. cbn [ad at_ atn moved] in E. rewrite E by (unfold dt in *; lra). reflexivity. }
  assert (Eb : workrate S ws b (Rabs (d u)) = y u * ws) by (apply LW; assumption).
  assert (Yq : y u * ws / ws = y u) by (field; lra).
  (* the function near u *)
  apply (D_loc (fun x => adn a + n * cpow (d x) ((n - 1) / n) * (y x * ws) * dt / wcrit log W (y x) / ws)).
  { pose proof (loc_gt d u vd 0 Hd (proj1 H01)) as L1. pose proof (loc_lt d u vd 1 Hd (proj2 H01)) as L2.
    pose proof (loc_gt (fun x => plastic_work S (moved a (d x) (e x) (s x))) u _ 0 Dw Hw) as L3.
    refine (filter_imp _ _ _ (filter_and _ _ L1 (filter_and _ _ L2 L3))). intros x (X1 & X2 & X3). cbv beta in X3.
    cbn [dm WorkDamage]. change (ad (moved a (d x) (e x) (s x))) with (d x). destruct (Req_EM_T (d x) 0); [lra|].
    rewrite (LW x (conj X1 X2) X3).
    assert (0 < y x). { unfold y. apply Rdiv_lt_0_compat; [|lra]. apply Rmult_lt_0_compat; lra. }
    destruct (Req_EM_T (y x * ws) 0) as [Z|Z]; [nra|]. rewrite (Rabs_pos_eq (d x)) by lra.
    replace (y x * ws / ws) with (y x) by (field; lra). reflexivity. }
  eapply D_eq.
  { apply D_plus; [apply D_const|]. apply D_div; [apply D_div; [|exact DW|exact Hc]|apply D_const|lra].
    apply D_mult; [|apply D_const]. apply D_mult; [|apply D_mult; [exact Dy|apply D_const]]. apply D_mult; [apply D_const|apply D_cpow; [exact Hd|lra]]. }
  cbv beta. cbn [dm_d dm_e dm_s WorkDamage]. change (ad b) with (d u). change (at_ b) with (at_ a). change (atn b) with (atn a). change (as_ b) with (s u). change (aT b) with (aT a).
  fold dt. rewrite Eb, Yq. destruct (Req_EM_T (d u) 0); [lra|]. destruct (Req_EM_T (y u * ws) 0) as [Z|Z]; [nra|].
  destruct (Rle_dec (d u) 0); [lra|]. rewrite (Rabs_pos_eq (d u)) by lra.
  set (val := wcrit log W (y u)) in *. set (dv := dwcrit log W W' (y u)).
  replace ((n - 1) / n - 1) with (-1 / n) by (field; exact Hn).
  set (p1 := cpow (d u) ((n - 1) / n)). set (p2 := cpow (d u) (-1 / n)).
  unfold dW. set (f := dot 6 (s u) (mv 6 (S (aT a)) (s u))).
  set (K := n * p1 / val * (1 - y u * ws / val * dv / ws) * (1 - d u)).
  assert (E1 : dot 6 (fun i => K * s u i) ve = K * dot 6 (s u) ve) by (unfold dot; rewrite <- rsum_scal; apply rsum_ext; intros; ring).
  assert (E2 : dot 6 (fun i => K * (wk_dp S b (d u) i - (1 - d u) * mv 6 (S (aT a)) (s u) i)) vs = K * dot 6 (fun i => wk_dp S b (d u) i - (1 - d u) * mv 6 (S (aT a)) (s u) i) vs)
    by (unfold dot; rewrite <- rsum_scal; apply rsum_ext; intros; ring).
  rewrite E1, E2. unfold K. set (q1 := dot 6 (s u) ve). set (q2 := dot 6 _ vs).
  assert (Ey : plastic_work S b = y u * dt / (1 - d u)) by (unfold y; fold b; field; lra). rewrite Ey. field. repeat split; lra.
Qed.

(** *** what is wrong where the hypotheses fail *)
Definition wargs (d dn : R) (e s : vec) : dargs := {| ad := d; adn := dn; ae := e; aen := vzero; as_ := s; asn := vzero; aT := 0; aTn := 0; at_ := 1; atn := 0 |}.
Definition S0 : R -> mat := fun _ _ _ => 0.
Definition W1 : damage := WorkDamage S0 (fun _ => 1) (fun _ => 0) 1 (1 / 100) 1 false.
Lemma mv_S0 v i : mv 6 (fun _ _ => 0) v i = 0.
Proof. unfold mv. rewrite (rsum_ext 6 _ (fun _ => 0)) by (intros; ring). apply rsum_0. Qed.
Lemma wr_S0 d dn e s : workrate S0 1 (wargs d dn e s) d = Rabs (dot 6 s e * (1 - d)).
Proof.
  unfold workrate. cbn [at_ atn wargs as_]. destruct (Rle_dec (1 - 0) 0); [lra|]. rewrite Rmult_1_r. f_equal.
  replace (dot 6 s (wk_dp S0 (wargs d dn e s) d)) with (dot 6 s e); [field|].
  unfold dot. apply rsum_ext. intros i Hi. unfold wk_dp, vsub. cbn [ae aen as_ asn aT wargs]. unfold S0. rewrite mv_S0. unfold vzero. ring.
Qed.
Lemma W1_value d dn e s : 0 < d < 1 -> dot 6 s e <> 0 -> dm W1 (wargs d dn e s) = dn + Rabs (dot 6 s e) * (1 - d).
Proof.
  intros H Hq. cbn [dm W1 WorkDamage]. change (ad (wargs d dn e s)) with d. destruct (Req_EM_T d 0); [lra|]. rewrite (Rabs_pos_eq d) by lra. rewrite wr_S0.
  rewrite Rabs_mult, (Rabs_pos_eq (1 - d)) by lra. pose proof (Rabs_pos_lt _ Hq). destruct (Req_EM_T _ 0) as [Z|Z]; [nra|].
  cbn [wcrit adn wargs at_ atn]. replace ((1 - 1) / 1) with 0 by field. rewrite cpow_pos, Rpower_O by lra. field.
Qed.
Lemma work_de_wrong : exists (D : damage) a, 0 < ad a < 1 /\ atn a < at_ a /\
  (exists S W W' n eps0 ws log, D = WorkDamage S W W' n eps0 ws log /\ (forall T, sym6 (S T)) /\ crit_exact W W' /\ 0 < ws /\ 0 < n /\ plastic_work S a < 0) /\
  is_derive (fun x => dm D (moved a (ad a) (fun i => ae a i + x * uni 1 i) (as_ a))) 0 (- dm_e D a 0%nat) /\ dm_e D a 0%nat <> 0.
Proof.
  exists W1, (wargs (1 / 2) 0 (uni (-1)) (uni 1)). cbn [ad at_ atn wargs]. split; [lra|]. split; [lra|].
  assert (Q : forall x, dot 6 (uni 1) (fun i => uni (-1) i + x * uni 1 i) = -1 + x) by (intros x; unfold uni; tab; ring).
  assert (Q0 : dot 6 (uni 1) (uni (-1)) = -1) by (unfold uni; tab; ring).
  split.
  { exists S0, (fun _ => 1), (fun _ => 0), 1, (1 / 100), 1, false. split; [reflexivity|]. split; [intros T i j Hi Hj; reflexivity|].
    split; [intros x; apply D_const|]. split; [lra|]. split; [lra|]. unfold plastic_work. cbn [ad adn ae aen as_ asn aT wargs].
    replace (dot 6 _ _) with (dot 6 (uni 1) (uni (-1))); [rewrite Q0; lra|]. unfold dot. apply rsum_ext. intros i Hi. unfold S0. rewrite mv_S0. unfold vzero. ring. }
  assert (E : dm_e W1 (wargs (1 / 2) 0 (uni (-1)) (uni 1)) 0%nat = 1 / 2).
  { cbn [dm_e W1 WorkDamage]. change (ad (wargs (1 / 2) 0 (uni (-1)) (uni 1))) with (1 / 2). destruct (Rle_dec (1 / 2) 0); [lra|].
    rewrite (Rabs_pos_eq (1 / 2)) by lra. rewrite wr_S0, Q0. replace (-1 * (1 - 1 / 2)) with (- (1 / 2)) by lra. rewrite Rabs_Ropp, Rabs_pos_eq by lra.
    destruct (Req_EM_T (1 / 2) 0); [lra|]. cbn [wcrit dwcrit as_ wargs]. replace ((1 - 1) / 1) with 0 by field. rewrite cpow_pos, Rpower_O by lra. cbn. field. }
  rewrite E. split; [|lra]. cbn [ae as_ wargs].
  apply (D_loc (fun x => (1 - x) * (1 / 2))).
  - assert (L : locally 0 (fun x : R => x < 1)) by (apply (loc_lt (fun x => x) 0 1 1 (D_id 0)); lra).
    refine (filter_imp _ _ _ L). intros x Hx.
    change (moved (wargs (1 / 2) 0 (uni (-1)) (uni 1)) (1 / 2) (fun i => uni (-1) i + x * uni 1 i) (uni 1)) with (wargs (1 / 2) 0 (fun i => uni (-1) i + x * uni 1 i) (uni 1)).
    rewrite W1_value by (rewrite ?Q; lra). rewrite Q, Rabs_left by lra. field.
  - eapply D_eq; [apply D_mult; [apply D_minus; [apply D_const|apply D_id]|apply D_const]|cbv beta; field].
Qed.
(** at zero work the derivative in the damage is reported as d_n although the law does not depend on it *)
Lemma work_dd_wrong S W W' n eps0 ws log a : as_ a = vzero ->
  (forall d, dm (WorkDamage S W W' n eps0 ws log) (moved a d (ae a) (as_ a)) = adn a) /\
  dm_d (WorkDamage S W W' n eps0 ws log) a = adn a.
Proof.
  intros Hs. assert (Z : forall d, workrate S ws (moved a d (ae a) (as_ a)) (Rabs d) = 0).
  { intros d. unfold workrate. destruct (Rle_dec _ 0); [reflexivity|]. cbn [as_ moved]. rewrite Hs. unfold vzero at 1. rewrite dot_zero6. unfold Rdiv. rewrite !Rmult_0_l, Rabs_R0. ring. }
  split.
  - intros d. cbn [dm WorkDamage]. change (ad (moved a d (ae a) (as_ a))) with d. rewrite Z. change (adn (moved a d (ae a) (as_ a))) with (adn a).
    destruct (Req_EM_T d 0); [reflexivity|]. destruct (Req_EM_T 0 0); [reflexivity|lra].
  - cbn [dm_d WorkDamage]. destruct (Req_EM_T (ad a) 0); [reflexivity|].
    assert (Za : workrate S ws a (Rabs (ad a)) = 0). { rewrite <- (Z (ad a)). unfold workrate, wk_dp. reflexivity. }
    rewrite Za. destruct (Req_EM_T 0 0); [reflexivity|lra].
Qed.

(** *** no healing *)
Lemma rate_heal r a : 0 <= dr r (ad a) (ae a) (as_ a) (aT a) (at_ a) -> atn a <= at_ a -> adn a <= dm (RateDamage r) a.
Proof. intros H Ht. cbn [dm RateDamage]. assert (0 <= dr r (ad a) (ae a) (as_ a) (aT a) (at_ a) * (at_ a - atn a)) by (apply Rmult_le_pos; lra). lra. Qed.
Lemma classical_rate A xi phi d e s T t : 0 < A T -> d <= 1 -> 0 <= dr (ClassicalCreepDamage A xi phi) d e s T t.
Proof.
  intros HA Hd. cbn [dr ClassicalCreepDamage]. pose proof (vm_nonneg s). apply Rmult_le_pos; apply cpow_ge0; [|lra].
  apply Rmult_le_pos; [assumption|]. left. apply Rinv_0_lt_compat, HA.
Qed.
Lemma modular_rate A xi phi E d e s T t : 0 < A T -> 0 <= ev_of E s -> d <= 1 -> 0 <= dr (ModularCreepDamage A xi phi E) d e s T t.
Proof.
  intros HA Hv Hd. cbn [dr ModularCreepDamage]. apply Rmult_le_pos; apply cpow_ge0; [|lra].
  apply Rmult_le_pos; [assumption|]. left. apply Rinv_0_lt_compat, HA.
Qed.
Lemma larson_rate tR dtR E d e s T t : (ev_of E s <> 0 -> 0 < tR (ev_of E s * (1 - d)) T) -> 0 <= dr (LarsonMillerDamage tR dtR E) d e s T t.
Proof.
  intros H. cbn [dr LarsonMillerDamage]. destruct (Req_EM_T _ 0) as [Z|Z]; [lra|]. left. apply Rdiv_lt_0_compat; [lra|]. apply H, Z.
Qed.
Lemma standard_heal S q a : 0 <= sf_f q (as_ a) (ad a) (aT a) -> adn a <= dm (StandardDamage S q) a.
Proof.
  intros H. cbn [dm StandardDamage]. assert (0 <= dep S a) by (rewrite dep_norm; apply Rmult_le_pos; apply sqrt_pos).
  assert (0 <= sf_f q (as_ a) (ad a) (aT a) * dep S a) by (apply Rmult_le_pos; assumption). lra.
Qed.
Lemma powerlaw_nonneg A a s d T : 0 <= A T -> 0 <= sf_f (PowerLawDamage A a) s d T.
Proof. intros H. cbn [sf_f PowerLawDamage]. apply Rmult_le_pos; [exact H|apply cpow_ge0, vm_nonneg]. Qed.
Lemma expwork_nonneg W0 k0 af s d T : 0 < W0 T -> 0 <= sf_f (ExponentialWorkDamage W0 k0 af) s d T.
Proof.
  intros H. cbn [sf_f ExponentialWorkDamage]. destruct (Rlt_dec _ 0) as [L|L]; [lra|]. apply Rmult_le_pos; [|apply vm_nonneg].
  apply Rmult_le_pos; [apply cpow_ge0; lra|]. left. apply Rinv_0_lt_compat, H.
Qed.
Lemma work_heal S W W' n eps0 ws log a : 0 <= n -> 0 < ws -> (forall x, 0 < wcrit log W x) -> adn a <= dm (WorkDamage S W W' n eps0 ws log) a.
Proof.
  intros Hn Hws HW. cbn [dm WorkDamage]. destruct (Req_EM_T (ad a) 0); [lra|]. destruct (Req_EM_T _ 0) as [Z|Z]; [lra|].
  set (wr := workrate S ws a (Rabs (ad a))) in *.
  assert (0 <= wr). { unfold wr, workrate. destruct (Rle_dec _ 0); [lra|]. apply Rmult_le_pos; [apply Rabs_pos|lra]. }
  assert (0 <= at_ a - atn a). { unfold wr, workrate in Z. destruct (Rle_dec (at_ a - atn a) 0); [lra|]. lra. }
  assert (0 <= n * cpow (Rabs (ad a)) ((n - 1) / n) * wr * (at_ a - atn a) / wcrit log W (wr / ws) / ws); [|lra].
  specialize (HW (wr / ws)). unfold Rdiv at 1 2. repeat apply Rmult_le_pos; try assumption.
  - apply cpow_ge0, Rabs_pos.
  - left. apply Rinv_0_lt_compat, HW.
  - left. apply Rinv_0_lt_compat, Hws.
Qed.
Lemma combined_heal l a : (forall m, In m l -> adn a <= dm m a) -> adn a <= dm (CombinedDamage l) a.
Proof.
  intros H. cbn [dm CombinedDamage]. rewrite (fold_plus (fun m => dm m a - adn a) l).
  assert (0 <= fold_left (fun d m => d + (dm m a - adn a)) l 0); [|lra].
  induction l as [|m l IH]; cbn [fold_left]; [lra|]. rewrite (fold_plus (fun m => dm m a - adn a) l).
  pose proof (H m (or_introl eq_refl)). specialize (IH (fun m' Hm => H m' (or_intror Hm))). lra.
Qed.
(** the combination adds the increments *)
Lemma combined_increment l a : dm (CombinedDamage l) a - adn a = fold_right (fun m x => (dm m a - adn a) + x) 0 l.
Proof.
  cbn [dm CombinedDamage]. rewrite (fold_plus (fun m => dm m a - adn a) l). 
  transitivity (fold_left (fun d m => d + (dm m a - adn a)) l 0); [ring|].
  induction l as [|m l IH]; cbn [fold_left fold_right]; [reflexivity|]. rewrite (fold_plus (fun m => dm m a - adn a) l), IH. ring.
Qed.
