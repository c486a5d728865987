(** Crystal damage *)
From Verif Require Import Base Diff NemlMathModel NemlMathSpec RotModel RotSpec TensorModel Blocks CrystModel CrystSpec SlipModel SlipSpec SlipFacts CpModel CpSpec CpProofs CpTurn MatInv.
From Verif Require Import CdModel CdSpec CdProofs CdTrans CdRate CdKin CdMore CdPlanes.
From Coq Require Import List Arith ZArith Lia Lra.
Import ListNotations.
Open Scope R_scope.

(** ** C72 *)
(** the six by six normal projection is the fourth order one *)
Theorem C72_normal_projection : forall n, represents (flat 6 (normal_projection_ss n)) (normal_projection n).
Proof. exact normal_represents. Qed.
Print Assumptions C72_normal_projection.
(** the six by six shear projection is twice the symmetric part of the fourth order one *)
Theorem C72_shear_projection : forall n s i j, (i < 3)%nat -> (j < 3)%nat ->
  usym (mv 6 (flat 6 (shear_projection_ss n)) s) (3 * i + j)%nat = act4 (shear_projection n) s i j + act4 (shear_projection n) s j i.
Proof. exact shear_doubles. Qed.
Print Assumptions C72_shear_projection.
(** so it is not the fourth order one *)
Theorem C72_shear_projection_refuted : exists n, unit3 n /\ ~ represents (flat 6 (shear_projection_ss n)) (shear_projection n).
Proof. exact shear_not_represented. Qed.
Print Assumptions C72_shear_projection_refuted.
(** both are projections, orthogonal to each other *)
Theorem C72_projections : forall n i j, unit3 n -> (i < 6)%nat -> (j < 6)%nat ->
  mm 6 (flat 6 (normal_projection_ss n)) (flat 6 (normal_projection_ss n)) i j = flat 6 (normal_projection_ss n) i j /\
  mm 6 (flat 6 (shear_projection_ss n)) (flat 6 (shear_projection_ss n)) i j = flat 6 (shear_projection_ss n) i j /\
  mm 6 (flat 6 (normal_projection_ss n)) (flat 6 (shear_projection_ss n)) i j = 0 /\
  mm 6 (flat 6 (shear_projection_ss n)) (flat 6 (normal_projection_ss n)) i j = 0.
Proof. exact projections_orthogonal. Qed.
Print Assumptions C72_projections.
(** with one plane, damage scales the shear and normal traction on the plane *)
Theorem C72_one_plane : forall L r pl q sh no s d sp i, p_n pl = 1%nat -> unit3 (p_normal pl 0%nat) -> (i < 3)%nat ->
  let n := p_normal pl 0%nat in
  traction (mv 6 (cd_P (planar L r pl q sh no) s d) sp) n i =
  (1 - t_map sh (d 0%nat) (tnormal s n)) * tshear sp n i + (1 - t_map no (d 0%nat) (tnormal s n)) * (tnormal sp n * n i).
Proof. exact one_plane_traction. Qed.
Print Assumptions C72_one_plane.
(** with several, the first plane carries nothing once it is fully damaged *)
Theorem C72_first_plane : forall L r pl q sh no s d sp i, (0 < p_n pl)%nat -> unit3 (p_normal pl 0%nat) -> (i < 3)%nat ->
  t_map sh (d 0%nat) (tnormal s (p_normal pl 0%nat)) = 1 -> t_map no (d 0%nat) (tnormal s (p_normal pl 0%nat)) = 1 ->
  traction (mv 6 (cd_P (planar L r pl q sh no) s d) sp) (p_normal pl 0%nat) i = 0.
Proof. exact first_plane_free. Qed.
Print Assumptions C72_first_plane.
(** the second may still carry traction *)
Theorem C72_other_planes_refuted : forall L r q, exists d sp s,
  (forall j, (j < 2)%nat -> unit3 (p_normal two_planes j)) /\
  (forall ns, t_map (sigmoid 1 1 1) (d 1%nat) ns = 1) /\
  traction (mv 6 (cd_P (planar L r two_planes q (sigmoid 1 1 1) (sigmoid 1 1 1)) s d) sp) (p_normal two_planes 1%nat) 1%nat <> 0.
Proof. exact second_plane_loaded. Qed.
Print Assumptions C72_other_planes_refuted.
(** the sigmoid map stays between zero and the cutoff *)
Theorem C72_map_range : forall c b cut d ns, 0 <= cut -> 0 < b -> 0 <= t_map (sigmoid c b cut) d ns <= cut.
Proof. exact sigmoid_range. Qed.
Print Assumptions C72_map_range.
(** and grows with damage *)
Theorem C72_map_grows : forall c b cut d d' ns ns', 0 <= cut -> 0 < b -> d <= d' -> t_map (sigmoid c b cut) d ns <= t_map (sigmoid c b cut) d' ns'.
Proof. exact sigmoid_mono. Qed.
Print Assumptions C72_map_grows.
(** it is zero without damage and one from the critical damage on *)
Theorem C72_map_ends : forall c b d ns, 0 < b -> 0 < c ->
  (t_map (sigmoid c b 1) d ns = 0 <-> d <= 0) /\ (t_map (sigmoid c b 1) d ns = 1 <-> c <= d).
Proof. exact sigmoid_ends. Qed.
Print Assumptions C72_map_ends.
(** it has the reported derivative *)
Theorem C72_sigmoid_derivative : forall c b cut, trans_exact (sigmoid c b cut) (fun d _ => sig_in c b cut d).
Proof. exact sigmoid_exact. Qed.
Print Assumptions C72_sigmoid_derivative.
(** also when switched off in compression, away from the switch *)
Theorem C72_switch_derivative : forall m P, trans_exact m P -> normal_free m ->
  trans_exact (switch m) (fun d ns => ns < 0 \/ (0 < ns /\ P d ns) \/ (P d ns /\ t_map m d ns = 0 /\ t_dd m d ns = 0)).
Proof. exact switch_exact. Qed.
Print Assumptions C72_switch_derivative.
(** the projection can be inverted exactly when no map of any plane is one *)
Theorem C72_invertible : forall L r pl dm sh no s d, (forall j, (j < p_n pl)%nat -> unit3 (p_normal pl j)) ->
  ((exists B, inverse_of 6 B (cd_P (planar L r pl dm sh no) s d)) <->
   forall j, (j < p_n pl)%nat -> t_map sh (d j) (tnormal s (p_normal pl j)) <> 1 /\ t_map no (d j) (tnormal s (p_normal pl j)) <> 1).
Proof. exact planar_invertible. Qed.
Print Assumptions C72_invertible.
(** hence with the default cutoff not at all once one plane reaches its critical damage *)
Theorem C72_critical : forall L r pl q c b c' b' s d, (forall j, (j < p_n pl)%nat -> unit3 (p_normal pl j)) -> 0 < b -> 0 < c -> 0 < b' -> 0 < c' ->
  ((exists B, inverse_of 6 B (cd_P (planar L r pl q (sigmoid c b 1) (sigmoid c' b' 1)) s d)) <-> forall j, (j < p_n pl)%nat -> d j < c /\ d j < c').
Proof. exact sigmoid_invertible. Qed.
Print Assumptions C72_critical.
(** and always with a cutoff below one *)
Theorem C72_cutoff : forall L r pl q c b cut c' b' cut' s d, (forall j, (j < p_n pl)%nat -> unit3 (p_normal pl j)) -> 0 < b -> 0 <= cut < 1 -> 0 < b' -> 0 <= cut' < 1 ->
  exists B, inverse_of 6 B (cd_P (planar L r pl q (sigmoid c b cut) (switch (sigmoid c' b' cut'))) s d).
Proof. exact cutoff_invertible. Qed.
Print Assumptions C72_cutoff.
(** the initial state is undamaged *)
Theorem C72_undamaged : forall L r pl c b cut c' b' cut' s a k, 0 < b -> 0 < c -> 0 <= cut -> 0 < b' -> 0 < c' -> 0 <= cut' -> (a < 6)%nat -> (k < 6)%nat ->
  cd_P (planar L r pl work_damage (sigmoid c b cut) (switch (sigmoid c' b' cut'))) s (cd_init (planar L r pl work_damage (sigmoid c b cut) (switch (sigmoid c' b' cut')))) a k = delta a k.
Proof. exact initial_undamaged. Qed.
Print Assumptions C72_undamaged.
(** work damage grows *)
Theorem C72_work_grows : forall L g0 n res pl sh no s h d i, 0 <= g0 -> Forall (fun p => 0 < rs_str L (pl_rule g0 n res) h p 0%nat) (p_sys pl i) ->
  0 <= cd_rate (planar L (pl_rule g0 n res) pl work_damage sh no) s h d i.
Proof. exact power_work_growth. Qed.
Print Assumptions C72_work_grows.
Theorem C72_work_derivative : pdamage_exact work_damage.
Proof. exact work_exact. Qed.
Print Assumptions C72_work_derivative.
(** the derivatives of the projection, when the maps do not follow the normal stress *)
Theorem C72_projection_derivatives : forall L r pl dm sh no Psh Pno, trans_exact sh Psh -> trans_exact no Pno -> normal_free sh -> normal_free no ->
  projection_exact (planar L r pl dm sh no) (fun s d => forall j, (j < p_n pl)%nat -> Psh (d j) (tnormal s (p_normal pl j)) /\ Pno (d j) (tnormal s (p_normal pl j))).
Proof. exact planar_projection. Qed.
Print Assumptions C72_projection_derivatives.
(** and never right when a map does *)
Theorem C72_projection_derivatives_refuted : forall L r q (Q : vec -> vec -> Prop), (exists s d, Q s d) -> ~ projection_exact (planar L r one_plane q follows ignores) Q.
Proof. exact projection_stress_wrong. Qed.
Print Assumptions C72_projection_derivatives_refuted.
(** the derivatives of the damage rates *)
Theorem C72_rate_derivatives : forall L r pl q sh no Ps Ph, pdamage_exact q -> scalar_exact r Ps -> (forall k, (k < r_n r)%nat -> strength_exact L (r_str r k) (Ph k)) ->
  (forall i, (i < p_n pl)%nat -> Forall (fun p => (p < l_n L)%nat) (p_sys pl i)) ->
  damage_rate_exact (r_nh r) (planar L r pl q sh no) (fun s h _ => slip_in L r Ps Ph s h).
Proof. exact planar_rates. Qed.
Print Assumptions C72_rate_derivatives.
(** the planes of a lattice have unit normals *)
Theorem C72_planes_unit : forall hash m2d m2p ops L Q j, built hash m2d m2p ops L -> unitq Q -> (j < p_n (planes_of L Q))%nat -> unit3 (p_normal (planes_of L Q) j).
Proof. exact planes_unit. Qed.
Print Assumptions C72_planes_unit.
(** their systems are systems of the lattice *)
Theorem C72_planes_systems : forall hash m2d m2p ops L Q j, built hash m2d m2p ops L -> Forall (fun p => (p < l_n (view L Q))%nat) (p_sys (planes_of L Q) j).
Proof. exact planes_systems. Qed.
Print Assumptions C72_planes_systems.
(** every system is on a plane *)
Theorem C72_planes_cover : forall hash m2d m2p ops L Q g i s, built hash m2d m2p ops L -> get_sys L g i = Some s ->
  exists j, (j < p_n (planes_of L Q))%nat /\ In (boff (grp_size L) g + i)%nat (p_sys (planes_of L Q) j).
Proof. exact planes_cover. Qed.
Print Assumptions C72_planes_cover.
(** a plane with one system, half damaged *)
Example C72_case : (forall j, (j < p_n one_system)%nat -> unit3 (p_normal one_system j)) /\ sig_in 1 1 1 (1 / 2) /\ sig_in 1 2 1 0 /\
  (exists B, inverse_of 6 B (cd_P half_damage vzero (fun _ => 1 / 2))) /\ (exists a, (a < 6)%nat /\ cd_P half_damage vzero (fun _ => 1 / 2) a a <> 1).
Proof.
  split; [intros j Hj; exact unit_e1|]. split; [right; left; split; [lra|]; rewrite half_half; lra|]. split; [right; right; left; repeat split; lra|].
  split; [exists (pd_factor (1 - / (1 - 1 / 2)) (1 - / (1 - 1 / 2)) e1); exact (half_invertible (asaro lat1 rule1) vzero)|].
  exists 0%nat. split; [lia|]. pose proof (half_P (asaro lat1 rule1) 0 0 vzero ltac:(lia) ltac:(lia)) as E. unfold dk_P in E. change (dk_d (asaro lat1 rule1) (fun _ => 1 / 2)) with (fun _ : nat => 1 / 2) in E.
  rewrite E. unfold pd_factor, flat, e1, delta. cbn. lra.
Qed.
Example C72_damage_case : 0 < cd_rate half_damage (delta 5) vzero (fun _ => 1 / 2) 0%nat.
Proof.
  unfold half_damage. cbn. unfold pd_tau, pd_gam, rs_slip, rs_gate. cbn. unfold rs_tau, sym_contract, pl_slip. cbn. unfold delta. cbn.
  replace (1 - 1) with 0 by ring. assert (C : forall x, cpow x 0 = 1). { intros x. unfold cpow. destruct (Rlt_dec 0 x); [apply Rpower_O; assumption|]. destruct (Req_EM_T 0 0); lra. }
  rewrite C. lra.
Qed.

(** ** C73 *)
(** the derivatives of the stress rate by stress, inelastic and damage variables *)
Theorem C73_rate_derivatives : forall inv f m dm Pm Q d, inverts inv -> inelastic_exact m Pm -> projection_exact dm Q -> stays_invertible dm Q ->
  is_jac2 6 6 (i_n m + cd_n dm) (dk_in inv m dm Pm Q) (fun s h => dk_rate inv f m dm s d h) (fun s h => dk_ds inv f m dm s d h) (fun s h => dk_dh inv f m dm s d h).
Proof. exact damaged_rate_exact. Qed.
Print Assumptions C73_rate_derivatives.
(** those of the history rates *)
Theorem C73_history_derivatives : forall inv m dm Pm Q Qr, inverts inv -> inelastic_exact m Pm -> projection_exact dm Q -> stays_invertible dm Q -> damage_rate_exact (i_n m) dm Qr ->
  is_jac2 (i_n m + cd_n dm) 6 (i_n m + cd_n dm) (fun s h => dk_in inv m dm Pm Q s h /\ Qr (dk_sp inv m dm s h) (dk_i m h) (dk_d m h))
    (fun s h => dk_hrate inv m dm s h) (fun s h => dk_hrate_s inv m dm s h) (fun s h => dk_hrate_h inv m dm s h).
Proof. exact damaged_history_exact. Qed.
Print Assumptions C73_history_derivatives.
Theorem C73_by_deformation : forall inv f m dm (s h : vec) (d : R -> vec) t vd, path 6 d t vd -> path 6 (fun u => dk_rate inv f m dm s (d u) h) t (mv 6 (dk_dd f m dm s h) vd).
Proof. exact damaged_by_d. Qed.
Print Assumptions C73_by_deformation.
Theorem C73_by_vorticity : forall inv C S m dm (s0 h0 s d h : vec) (w : R -> vec) t vw, path 3 w t vw ->
  path 6 (fun u => dk_rate inv (dk_decouple inv C S m dm s0 (w u) h0) m dm s d h) t (mv 3 (dk_dw_decouple inv m dm s h) vw).
Proof. exact damaged_by_w. Qed.
Print Assumptions C73_by_vorticity.
(** planar damage below the critical value stays invertible *)
Theorem C73_planar_invertible : forall L r pl dm sh no Psh Pno, (forall j, (j < p_n pl)%nat -> unit3 (p_normal pl j)) -> trans_exact sh Psh -> trans_exact no Pno ->
  stays_invertible (planar L r pl dm sh no) (fun s d => forall j, (j < p_n pl)%nat -> Psh (d j) (tnormal s (p_normal pl j)) /\ Pno (d j) (tnormal s (p_normal pl j)) /\
    t_map sh (d j) (tnormal s (p_normal pl j)) <> 1 /\ t_map no (d j) (tnormal s (p_normal pl j)) <> 1).
Proof. exact planar_stays. Qed.
Print Assumptions C73_planar_invertible.
(** the model without damage *)
Theorem C73_nil : projection_exact nil_damage (fun _ _ => True) /\ (forall ni, damage_rate_exact ni nil_damage (fun _ _ _ => True)) /\ stays_invertible nil_damage (fun _ _ => True).
Proof. exact nil_exact. Qed.
Print Assumptions C73_nil.
Theorem C73_nil_stress : forall inv m s h, inverts inv -> veq 6 (dk_sp inv m nil_damage s h) s.
Proof. exact nil_sp. Qed.
Print Assumptions C73_nil_stress.
(** the rate of an undamaged state *)
Theorem C73_undamaged : forall inv f m dm s d h, inverts inv -> (forall a b, (a < 6)%nat -> (b < 6)%nat -> dk_P m dm s h a b = delta a b) ->
  (forall x y g, veq 6 x y -> veq 6 (i_dp m x g) (i_dp m y g) /\ veq 3 (i_wp m x g) (i_wp m y g)) -> forall i, (i < 6)%nat ->
  dk_rate inv f m dm s d h i = mv 6 (flat 6 (f_C f)) (vsub d (i_dp m s (dk_i m h))) i - net s (vadd (f_spin f) (i_wp m s (dk_i m h))) i.
Proof. exact undamaged_rate. Qed.
Print Assumptions C73_undamaged.
(** without damage and with isotropic elasticity it is the standard kinematic model *)
Theorem C73_nil_standard : forall inv f m s d h, inverts inv -> reads6 m -> isotropic (flat 6 (f_C f)) -> inverse_of 6 (flat 6 (f_S f)) (flat 6 (f_C f)) -> forall i, (i < 6)%nat ->
  dk_rate inv f m nil_damage s d h i = sk_rate f m s d (dk_i m h) i.
Proof. exact nil_standard. Qed.
Print Assumptions C73_nil_standard.
(** not with cubic elasticity *)
Theorem C73_nil_standard_refuted : forall inv, inverts inv -> exists s d f h, inverse_of 6 (flat 6 (f_S f)) (flat 6 (f_C f)) /\
  dk_rate inv f (power_inelasticity 1 1) nil_damage s d h 0%nat <> sk_rate f (power_inelasticity 1 1) s d (dk_i (power_inelasticity 1 1) h) 0%nat.
Proof. exact cubic_differs. Qed.
Print Assumptions C73_nil_standard_refuted.
Theorem C73_spin_value : forall inv S m dm s w h k, (k < 3)%nat -> dk_spin inv S m dm s w h k = w k - i_wp m s (dk_i m h) k.
Proof. exact damaged_spin_value. Qed.
Print Assumptions C73_spin_value.
(** the plastic spin taken out is not that of the stress on the undamaged material *)
Theorem C73_spin_refuted : forall inv S, inverts inv -> exists s w h, (exists B, inverse_of 6 B (dk_P (asaro lat1 rule1) half_damage s h)) /\
  dk_spin inv S (asaro lat1 rule1) half_damage s w h 0%nat <> w 0%nat - i_wp (asaro lat1 rule1) (dk_sp inv (asaro lat1 rule1) half_damage s h) (dk_i (asaro lat1 rule1) h) 0%nat.
Proof. exact damaged_spin_inconsistent. Qed.
Print Assumptions C73_spin_refuted.
(** a rigid rotation changes the magnitude of the stress of a damaged crystal *)
Theorem C73_rigid_spin_refuted : forall inv, inverts inv -> exists f m s h, (exists B, inverse_of 6 B (dk_P m half_damage s h)) /\ (forall x g k, i_dp m x g k = 0 /\ i_wp m x g k = 0) /\ dot 6 s (dk_rate inv f m half_damage s (fun _ => 0) h) <> 0.
Proof. exact rigid_spin_changes. Qed.
Print Assumptions C73_rigid_spin_refuted.
Theorem C73_elastic_strain : forall inv C S m dm s h, inverts inv -> (exists B, inverse_of 6 B (dk_P m dm s h)) -> inverse_of 6 (flat 6 S) (flat 6 C) ->
  veq 6 (mv 6 (dk_P m dm s h) (mv 6 (flat 6 C) (dk_estrain inv S m dm s h))) s.
Proof. exact damaged_estrain. Qed.
Print Assumptions C73_elastic_strain.
Theorem C73_elastic_increment : forall f m dm s d h dt i, dk_increment (f_C f) m dm s d h dt i = mv 6 (dk_dd f m dm s h) d i * dt.
Proof. exact damaged_increment. Qed.
Print Assumptions C73_elastic_increment.
(** planar damage below its critical value in the kinematic model *)
Theorem C73_planar : forall inv f m L r pl q sh no d Pm Psh Pno, inverts inv -> inelastic_exact m Pm -> (forall j, (j < p_n pl)%nat -> unit3 (p_normal pl j)) ->
  trans_exact sh Psh -> trans_exact no Pno -> normal_free sh -> normal_free no ->
  let dm := planar L r pl q sh no in
  is_jac2 6 6 (i_n m + p_n pl) (planar_in inv m dm pl sh no Pm Psh Pno)
    (fun s h => dk_rate inv f m dm s d h) (fun s h => dk_ds inv f m dm s d h) (fun s h => dk_dh inv f m dm s d h).
Proof. exact planar_kinematics. Qed.
Print Assumptions C73_planar.
(** a half damaged plane under load, whatever inverts matrices *)
Example C73_case : forall inv, inverts inv ->
  planar_in inv (power_inelasticity 1 3) half_damage one_system (sigmoid 1 1 1) (sigmoid 1 1 1) (fun s _ => eps < pi_seq s) (fun d _ => sig_in 1 1 1 d) (fun d _ => sig_in 1 1 1 d) loaded (fun _ => 1 / 2) /\
  inelastic_exact (power_inelasticity 1 3) (fun s _ => eps < pi_seq s) /\ trans_exact (sigmoid 1 1 1) (fun d _ => sig_in 1 1 1 d) /\ normal_free (sigmoid 1 1 1).
Proof. intros inv HI. split; [exact (planar_in_case inv HI)|]. split; [exact (power_exact 1 3)|]. split; [exact (sigmoid_exact 1 1 1)|]. intros d ns. reflexivity. Qed.
