From Verif Require Import Base.
From Verif Require Import Diff.
From Verif Require Import NemlMathModel NemlMathSpec NemlMathProofs SolverModel SolverSpec SolverProofs SubstepModel SurfModel SurfSpec SurfProofs HardProofs RiProofs.
From Verif Require Import PlastModel PlastSpec PlastProofs ViscoProofs YaguchiProofs CreepModel CreepSpec CreepProofs J2CreepProofs DamageModel DamageSpec.

(** *** von Mises *)
Lemma vm_seq s : vm s = seq s.
Proof. rewrite seq_mises. unfold vm, mises. f_equal. tab. field. Qed.
Lemma vm_nonneg s : 0 <= vm s. Proof. rewrite vm_seq. apply seq_nonneg. Qed.
Lemma D_vm s u vs : path 6 s u vs -> 0 < vm (s u) -> is_derive (fun x => vm (s x)) u (3 / 2 * dot 6 (dev_vec (s u)) vs / vm (s u)).
Proof.
  intros H Hp. rewrite vm_seq in *. apply (D_ext (fun x => seq (s x))); [intros x; symmetry; apply vm_seq|]. apply D_seq; assumption.
Qed.
Lemma vm_pos s : vm s <> 0 -> 0 < vm s. Proof. pose proof (vm_nonneg s). lra. Qed.
Lemma cpow_ge0 x y : 0 <= x -> 0 <= cpow x y.
Proof.
  intros H. unfold cpow. destruct (Rlt_dec 0 x).
  - left. apply exp_pos.
  - repeat match goal with |- context [if ?b then _ else _] => destruct b end; lra.
Qed.
Lemma cpow_gt0 x y : 0 < x -> 0 < cpow x y.
Proof. intros H. rewrite cpow_pos by exact H. apply exp_pos. Qed.
Lemma dot_scale_l n a k b : dot n (fun i => a i * k) b = k * dot n a b.
Proof. unfold dot. rewrite <- rsum_scal. apply rsum_ext. intros; ring. Qed.
Lemma dot_zero6 b : dot 6 (fun _ => 0) b = 0.
Proof. unfold dot. rewrite (rsum_ext 6 _ (fun _ => 0)) by (intros; ring). apply rsum_0. Qed.

(** *** rates *)
Lemma rate_damage_exact P r : rate_exact P r -> damage_exact (fun a => P (ad a) (ae a) (as_ a) (aT a) (at_ a)) (RateDamage r).
Proof.
  intros H a d e s u vd ve vs Hd He Hs b HP. pose proof (H (aT a) (at_ a) d e s u vd ve vs Hd He Hs HP) as D.
  apply (D_ext (fun x => dr r (d x) (e x) (s x) (aT a) (at_ a) * (at_ a - atn a) + adn a)); [intros x; reflexivity|].
  eapply D_eq; [apply D_plus; [apply D_mult; [exact D|apply D_const]|apply D_const]|cbv beta].
  change (dm_d (RateDamage r) b) with (dr_d r (d u) (e u) (s u) (aT a) (at_ a) * (at_ a - atn a)).
  change (dm_e (RateDamage r) b) with (fun i => dr_e r (d u) (e u) (s u) (aT a) (at_ a) i * (at_ a - atn a)).
  change (dm_s (RateDamage r) b) with (fun i => dr_s r (d u) (e u) (s u) (aT a) (at_ a) i * (at_ a - atn a)).
  rewrite !dot_scale_l. ring.
Qed.
Lemma classical_exact A xi phi : rate_exact (fun d e s T t => 0 < vm s /\ 0 < A T /\ d < 1) (ClassicalCreepDamage A xi phi).
Proof.
  intros T t d e s u vd ve vs Hd He Hs (Hv & HA & Hd1). cbn [dr dr_d dr_e dr_s ClassicalCreepDamage].
  pose proof (D_vm s u vs Hs Hv) as Dv.
  assert (Hq : 0 < vm (s u) / A T) by (apply Rdiv_lt_0_compat; assumption).
  eapply D_eq.
  - apply D_mult.
    + apply (D_cpow (fun x => vm (s x) / A T) (xi T)); [|exact Hq]. apply D_div; [exact Dv|apply D_const|lra].
    + apply (D_cpow (fun x => 1 - d x) (- phi T)); [|lra]. apply D_minus; [apply D_const|exact Hd].
  - cbv beta. destruct (Req_EM_T (vm (s u)) 0) as [E|E]; [lra|]. rewrite dot_zero6, dot_scale_l.
    replace (- (phi T + 1)) with (- phi T - 1) by ring. set (d6 := dot 6 _ _). field. split; lra.
Qed.
Lemma ev_exact P E (s : R -> vec) u vs : es_exact P E -> path 6 s u vs -> P (s u) ->
  is_derive (fun x => ev_of E (s x)) u (dot 6 (ed_of E (s u)) vs).
Proof.
  intros H Hs HP. destruct (H s u vs Hs HP) as (f & g & L & Eg & D). unfold ed_of. rewrite Eg.
  apply (D_loc f); [|exact D]. refine (filter_imp _ _ _ L). intros x Hx. unfold ev_of. rewrite Hx. reflexivity.
Qed.
Lemma modular_exact P A xi phi E : es_exact P E ->
  rate_exact (fun d e s T t => P s /\ 0 < ev_of E s /\ 0 < A T /\ d < 1) (ModularCreepDamage A xi phi E).
Proof.
  intros HE T t d e s u vd ve vs Hd He Hs (HP & Hv & HA & Hd1). cbn [dr dr_d dr_e dr_s ModularCreepDamage].
  pose proof (ev_exact P E s u vs HE Hs HP) as Dv.
  assert (Hq : 0 < ev_of E (s u) / A T) by (apply Rdiv_lt_0_compat; assumption).
  eapply D_eq.
  - apply D_mult.
    + apply (D_cpow (fun x => ev_of E (s x) / A T) (xi T)); [|exact Hq]. apply D_div; [exact Dv|apply D_const|lra].
    + apply (D_cpow (fun x => 1 - d x) (xi T - phi T)); [|lra]. apply D_minus; [apply D_const|exact Hd].
  - cbv beta. destruct (Req_EM_T (ev_of E (s u)) 0) as [E0|E0]; [lra|]. rewrite dot_zero6, dot_scale_l.
    set (d6 := dot 6 _ _). field. lra.
Qed.
Definition lm_rule_exact (P : R -> R -> Prop) (tR dtR : R -> R -> R) : Prop :=
  forall s T, P s T -> is_derive (fun x => tR x T) s (dtR s T) /\ tR s T <> 0.
Lemma larson_exact P Q tR dtR E : es_exact P E -> lm_rule_exact Q tR dtR ->
  rate_exact (fun d e s T t => P s /\ ev_of E s <> 0 /\ Q (ev_of E s * (1 - d)) T) (LarsonMillerDamage tR dtR E).
Proof.
  intros HE HL T t d e s u vd ve vs Hd He Hs (HP & Hv & HQ). cbn [dr dr_d dr_e dr_s LarsonMillerDamage].
  pose proof (ev_exact P E s u vs HE Hs HP) as Dv. destruct (HL _ _ HQ) as [DL Ht].
  apply (D_loc (fun x => 1 / tR (ev_of E (s x) * (1 - d x)) T)).
  - refine (filter_imp _ _ _ (loc_neq (fun x => ev_of E (s x)) u _ 0 Dv Hv)). intros x Hx. cbv beta in Hx. destruct (Req_EM_T _ 0); [contradiction|reflexivity].
  - eapply D_eq.
    + apply (D_div (fun _ => 1) (fun x => tR (ev_of E (s x) * (1 - d x)) T)); [apply D_const| |exact Ht].
      apply (D_comp (fun y => tR y T) (fun x => ev_of E (s x) * (1 - d x))); [|exact DL].
      apply D_mult; [exact Dv|]. apply D_minus; [apply D_const|exact Hd].
    + cbv beta. destruct (Req_EM_T (ev_of E (s u)) 0) as [E0|E0]; [lra|]. rewrite dot_zero6, dot_scale_l.
      set (d6 := dot 6 _ _). field. exact Ht.
Qed.

(** *** combination *)
Lemma fold_plus {A} (f : A -> R) l x : fold_left (fun d m => d + f m) l x = x + fold_left (fun d m => d + f m) l 0.
Proof. revert x. induction l as [|m l IH]; intros x; cbn; [ring|]. rewrite IH, (IH (0 + f m)). ring. Qed.
Lemma fold_dot (f : damage -> vec) l v : dot 6 (fun i => fold_left (fun d m => d + f m i) l 0) v = fold_left (fun d m => d + dot 6 (f m) v) l 0.
Proof.
  induction l as [|m l IH]; cbn [fold_left]; [apply dot_zero6|].
  rewrite (fold_plus (fun m => dot 6 (f m) v) l (0 + dot 6 (f m) v)), <- IH. unfold dot. 
  rewrite (rsum_ext 6 _ (fun i => f m i * v i + fold_left (fun d m => d + f m i) l 0 * v i)).
  - rewrite rsum_plus. ring.
  - intros i Hi. rewrite (fold_plus (fun m => f m i) l (0 + f m i)). ring.
Qed.
Lemma combined_exact P l : (forall m, In m l -> damage_exact P m) -> damage_exact P (CombinedDamage l).
Proof.
  intros H a d e s u vd ve vs Hd He Hs b HP. cbn [dm dm_d dm_e dm_s CombinedDamage]. rewrite !fold_dot.
  apply (D_ext (fun x => adn a + fold_left (fun d0 m => d0 + (dm m (moved a (d x) (e x) (s x)) - adn a)) l 0)).
  { intros x. symmetry. apply (fold_plus (fun m => dm m (moved a (d x) (e x) (s x)) - adn a) l (adn a)). }
  eapply D_eq; [apply D_plus; [apply D_const|]|apply Rplus_0_l].
  induction l as [|m l IH]; cbn [fold_left].
  - eapply D_eq; [apply D_const|ring].
  - assert (H1 := H m (or_introl eq_refl) a d e s u vd ve vs Hd He Hs HP). cbv zeta in H1. fold b in H1.
    specialize (IH (fun m' Hm => H m' (or_intror Hm))).
    apply (D_ext (fun x => (dm m (moved a (d x) (e x) (s x)) - adn a) + fold_left (fun d0 m => d0 + (dm m (moved a (d x) (e x) (s x)) - adn a)) l 0)).
    { intros x. rewrite (fold_plus (fun m => dm m (moved a (d x) (e x) (s x)) - adn a) l (0 + _)). ring. }
    eapply D_eq; [apply D_plus; [apply D_minus; [exact H1|apply D_const]|exact IH]|cbv beta].
    rewrite (fold_plus (fun m => dm_d m b) l (0 + _)), (fold_plus (fun m => dot 6 (dm_e m b) ve) l (0 + _)), (fold_plus (fun m => dot 6 (dm_s m b) vs) l (0 + _)).
    change (fun i : nat => dm_e m b i) with (dm_e m b). change (fun i : nat => dm_s m b i) with (dm_s m b).
    change (fold_left (fun (d0 : R) (m0 : damage) => d0 + dot 6 (fun i : nat => dm_e m0 b i) ve) l 0) with (fold_left (fun (d0 : R) (m0 : damage) => d0 + dot 6 (dm_e m0 b) ve) l 0).
    change (fold_left (fun (d0 : R) (m0 : damage) => d0 + dot 6 (fun i : nat => dm_s m0 b i) vs) l 0) with (fold_left (fun (d0 : R) (m0 : damage) => d0 + dot 6 (dm_s m0 b) vs) l 0).
    ring.
Qed.

(** *** f(s, d, T) times the equivalent plastic strain increment *)
Lemma powerlaw_f_exact A a : sdfun_exact (fun s d T => 0 < vm s) (PowerLawDamage A a).
Proof.
  intros T d s u vd vs Hd Hs Hv. cbn [sf_f sf_d sf_s PowerLawDamage]. pose proof (D_vm s u vs Hs Hv) as Dv.
  eapply D_eq; [apply D_mult; [apply D_const|apply D_cpow; [exact Dv|exact Hv]]|cbv beta].
  destruct (Req_EM_T (vm (s u)) 0); [lra|]. rewrite dot_scale_l. rewrite (cpow_step (vm (s u)) (a T - 1) Hv).
  replace (a T - 1 - 1) with (a T - 2) by ring. set (d6 := dot 6 _ _). field. lra.
Qed.
Lemma expwork_f_exact W0 k0 af : sdfun_exact (fun s d T => 0 < vm s /\ 0 < d + k0 T /\ W0 T <> 0) (ExponentialWorkDamage W0 k0 af).
Proof.
  intros T d s u vd vs Hd Hs (Hv & Hk & HW). cbn [sf_f sf_d sf_s ExponentialWorkDamage]. pose proof (D_vm s u vs Hs Hv) as Dv.
  assert (Dk : is_derive (fun x => d x + k0 T) u (vd + 0)) by (apply D_plus; [exact Hd|apply D_const]).
  apply (D_loc (fun x => cpow (d x + k0 T) (af T) / W0 T * vm (s x))).
  - refine (filter_imp _ _ _ (loc_gt (fun x => d x + k0 T) u _ 0 Dk Hk)). intros x Hx. cbv beta in Hx. destruct (Rlt_dec _ 0); [lra|reflexivity].
  - eapply D_eq.
    + apply D_mult; [|exact Dv]. apply D_div; [apply D_cpow; [exact Dk|exact Hk]|apply D_const|exact HW].
    + cbv beta. destruct (Req_EM_T (vm (s u)) 0); [lra|]. destruct (Rlt_dec (d u + k0 T) 0); [lra|]. rewrite dot_scale_l.
      set (d6 := dot 6 _ _). field. split; lra.
Qed.
Lemma dep_norm S a : dep S a = sqrt (2 / 3) * norm2 6 (plastic_increment S a).
Proof.
  unfold dep. assert (E : dep_sq S a = 2 / 3 * dot 6 (plastic_increment S a) (plastic_increment S a)).
  { unfold dep_sq. f_equal. unfold dot, plastic_increment, dep_dee, dep_de, dep_ds, vsub.
    rewrite <- rsum_scal, <- rsum_plus, <- rsum_minus. apply rsum_ext. intros; ring. }
  assert (0 <= dot 6 (plastic_increment S a) (plastic_increment S a)) by (unfold dot; apply rsum_nonneg; intros; nra).
  destruct (Rlt_dec (dep_sq S a) 0) as [L|L]; [rewrite E in L; lra|]. rewrite E. unfold norm2. apply sqrt_mult_alt. lra.
Qed.
Lemma dep_eeq S a : dep S a = eeq (plastic_increment S a). Proof. apply dep_norm. Qed.
Lemma sym_dot_mv S v w : sym6 S -> dot 6 v (mv 6 S w) = dot 6 (mv 6 S v) w.
Proof.
  intros H. unfold dot, mv. rewrite (rsum_ext 6 (fun i => v i * _) (fun i => rsum 6 (fun j => S i j * v i * w j))).
  - rewrite rsum_swap. apply rsum_ext. intros j Hj. rewrite <- rsum_scal_r. apply rsum_ext. intros i Hi. rewrite (H i j Hi Hj). ring.
  - intros i Hi. rewrite <- rsum_scal. apply rsum_ext. intros; ring.
Qed.
Lemma standard_exact P S q : sdfun_exact P q -> (forall T, sym6 (S T)) ->
  damage_exact (fun a => P (as_ a) (ad a) (aT a) /\ exists i, (i < 6)%nat /\ plastic_increment S a i <> 0) (StandardDamage S q).
Proof.
  intros Hq HS a d e s u vd ve vs Hd He Hs b (HP & k & Hk & Hne).
  pose proof (Hq (aT a) d s u vd vs Hd Hs HP) as Df.
  pose (pc := fun x => plastic_increment S (moved a (d x) (e x) (s x))).
  pose (vp := fun i => ve i - mv 6 (S (aT a)) vs i).
  assert (Pp : path 6 pc u vp).
  { intros i Hi. unfold pc, plastic_increment, vp. cbn [ae aen as_ asn aT moved].
    eapply D_eq; [apply D_minus; [apply D_minus; [apply (He i Hi)|apply D_const]|]|].
    - unfold mv. apply D_rsum. intros j Hj. apply D_mult; [apply D_const|]. apply D_minus; [apply (Hs j Hj)|apply D_const].
    - cbv beta. unfold mv. rewrite Rminus_0_r. f_equal. apply rsum_ext. intros; ring. }
  assert (Hp : 0 < eeq (pc u)).
  { unfold eeq. apply Rmult_lt_0_compat; [apply s23_pos|]. unfold norm2. apply sqrt_lt_R0.
    assert (G : 0 <= dot 6 (pc u) (pc u)) by (unfold dot; apply rsum_nonneg; intros; nra).
    destruct G as [G|G]; [exact G|]. exfalso. apply Hne.
    pose proof (rsum_zero_inv 6 (fun i => pc u i * pc u i)) as Z. cbv beta in Z. fold (dot 6 (pc u) (pc u)) in Z.
    assert (Q : pc u k * pc u k = 0) by (apply Z; [intros; nra|symmetry; exact G|exact Hk]). unfold pc in Q. change (plastic_increment S b k * plastic_increment S b k = 0) in Q. nra. }
  pose proof (D_eeq pc u vp Pp Hp) as Dp.
  assert (Dd : is_derive (fun x => dep S (moved a (d x) (e x) (s x))) u (2 / 3 * dot 6 (pc u) vp / eeq (pc u))).
  { apply (D_ext (fun x => eeq (pc x))); [intros x; symmetry; apply dep_eeq|exact Dp]. }
  cbn [dm dm_d dm_e dm_s StandardDamage]. change (as_ b) with (s u). change (ad b) with (d u). change (aT b) with (aT a).
  assert (Eb : dep S b = eeq (pc u)) by apply dep_eeq. rewrite Eb. destruct (Req_EM_T (eeq (pc u)) 0) as [E0|E0]; [lra|].
  apply (D_ext (fun x => adn a + sf_f q (s x) (d x) (aT a) * dep S (moved a (d x) (e x) (s x)))); [intros x; reflexivity|].
  eapply D_eq; [apply D_plus; [apply D_const|apply D_mult; [exact Df|exact Dd]]|cbv beta].
  change (dep S (moved a (d u) (e u) (s u))) with (dep S b). rewrite Eb.
  set (F := sf_f q (s u) (d u) (aT a)). set (c := 2 * F / (3 * eeq (pc u))).
  assert (E1 : dot 6 (fun i => c * (dep_de b i - dep_dee S b i)) ve = c * dot 6 (pc u) ve).
  { unfold dot. rewrite <- rsum_scal. apply rsum_ext. intros i Hi. unfold pc, plastic_increment, dep_de, dep_dee, dep_ds, vsub. cbn [ae aen as_ asn aT moved b]. ring. }
  assert (E2 : dot 6 (fun i => sf_s q (s u) (d u) (aT a) i * eeq (pc u) + mv 6 (S (aT a)) (fun k => c * (dep_dee S b k - dep_de b k)) i) vs
     = eeq (pc u) * dot 6 (sf_s q (s u) (d u) (aT a)) vs - c * dot 6 (pc u) (mv 6 (S (aT a)) vs)).
  { rewrite (sym_dot_mv (S (aT a)) (pc u) vs (HS _)). unfold dot. rewrite <- !rsum_scal, <- rsum_minus. apply rsum_ext. intros i Hi.
    replace (mv 6 (S (aT a)) (fun k0 => c * (dep_dee S b k0 - dep_de b k0)) i) with (- c * mv 6 (S (aT a)) (pc u) i); [ring|].
    unfold mv. rewrite <- rsum_scal. apply rsum_ext. intros j Hj. unfold pc, plastic_increment, dep_de, dep_dee, dep_ds, vsub. cbn [ae aen as_ asn aT moved b]. unfold mv. ring. }
  rewrite E1, E2. assert (E3 : dot 6 (pc u) vp = dot 6 (pc u) ve - dot 6 (pc u) (mv 6 (S (aT a)) vs)).
  { unfold dot, vp. rewrite <- rsum_minus. apply rsum_ext. intros; ring. }
  rewrite E3. unfold c. field. exact E0.
Qed.
