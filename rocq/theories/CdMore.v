(** Projections, transformed tractions, the undamaged limit, and what fails. *)
From Verif Require Import Base.
From Verif Require Import Diff.
From Verif Require Import NemlMathModel.
From Verif Require Import NemlMathSpec.
From Verif Require Import NemlMathProofs.
From Verif Require Import RotModel.
From Verif Require Import TensorModel.
From Verif Require Import SlipModel.
From Verif Require Import SlipProofs.
From Verif Require Import SlipFacts.
From Verif Require Import CpModel.
From Verif Require Import CpSpec.
From Verif Require Import CpProofs.
From Verif Require Import CpFacts.
From Verif Require Import CpTurn.
From Verif Require Import MatInv.
From Verif Require Import CdModel.
From Verif Require Import CdSpec.
From Verif Require Import CdProofs.
From Verif Require Import CdTrans.
From Verif Require Import CdRate.
From Verif Require Import CdKin.
From Coq Require Import List FunctionalExtensionality.

(** *** The projections *)
Lemma usym_scale c (a : vec) p : usym (fun k => c * a k) p = c * usym a p.
Proof.
  assert (r2 <> 0) by (pose proof r2_pos; lra). unfold usym.
  destruct p as [|[|[|[|[|[|[|[|[|p]]]]]]]]]; cbv beta iota; try ring; field; assumption.
Qed.
Lemma usym_ext a b p : veq 6 a b -> usym a p = usym b p.
Proof. intros H. unfold usym. destruct p as [|[|[|[|[|[|[|[|[|p]]]]]]]]]; rewrite ?(H 0%nat), ?(H 1%nat), ?(H 2%nat), ?(H 3%nat), ?(H 4%nat), ?(H 5%nat) by lia; reflexivity. Qed.
Lemma normal_represents n : represents (flat 6 (normal_projection_ss n)) (normal_projection n).
Proof.
  intros s i j Hi Hj. rewrite (usym_ext _ (fun k => tnormal s n * dy n n k)) by (intros k Hk; apply normal_action; exact Hk). rewrite usym_scale, usym_dy by assumption.
  unfold act4, normal_projection, tnormal, traction. cbn [rsum]. field.
Qed.
Lemma shear_doubles n s i j : (i < 3)%nat -> (j < 3)%nat ->
  usym (mv 6 (flat 6 (shear_projection_ss n)) s) (3 * i + j)%nat = act4 (shear_projection n) s i j + act4 (shear_projection n) s j i.
Proof.
  intros Hi Hj. rewrite (usym_ext _ (fun k => 2 * dy (tshear s n) n k)) by (intros k Hk; apply shear_action; exact Hk). rewrite usym_scale, usym_dy by assumption.
  assert (T : forall a b, (a < 3)%nat -> act4 (shear_projection n) s a b = tshear s n a * n b).
  { intros a b Ha. unfold act4, shear_projection, tshear, tnormal, traction. cases3 a Ha; cbn; ring. }
  rewrite !T by assumption. field.
Qed.
Definition e1 : vec := fun i => match i with O => 1 | _ => 0 end.
Lemma unit_e1 : unit3 e1.
Proof. unfold unit3, e1. cbn. ring. Qed.
Lemma shear_not_represented : exists n, unit3 n /\ ~ represents (flat 6 (shear_projection_ss n)) (shear_projection n).
Proof.
  exists e1. split; [exact unit_e1|]. intros H. specialize (H (delta 5) 0%nat 1%nat ltac:(lia) ltac:(lia)). rewrite shear_doubles in H by lia.
  revert H. unfold act4, shear_projection. cbn. unfold e1, delta. cbn. pose proof r2_pos as P. assert (0 < 1 / r2) by (apply Rdiv_lt_0_compat; lra). intros X. ring_simplify in X. lra.
Qed.
Lemma tnormal_2dy s n : unit3 n -> tnormal (fun k => 2 * dy (tshear s n) n k) n = 0.
Proof.
  intros U. pose proof (tshear_normal s n U) as T. rewrite tnormal_sum.
  assert (X : forall i, (i < 3)%nat -> traction (fun k => 2 * dy (tshear s n) n k) n i = tshear s n i).
  { intros i Hi. rewrite (traction_ext _ (fun k => vzero k - (-2) * dy (tshear s n) n k - 0 * vzero k)) by first [exact Hi|intros k Hk; unfold vzero; cbv beta; ring].
    rewrite traction_lin by exact Hi. rewrite traction_dy by exact Hi. rewrite T. unfold unit3 in U. rewrite U.
    assert (Z : traction vzero n i = 0) by (rewrite traction_table by exact Hi; cases3 i Hi; unfold vzero; cbv beta iota; field). rewrite Z. field. }
  rewrite !X by lia. cbn [rsum] in T. lra.
Qed.
Lemma projections_orthogonal n i j : unit3 n -> (i < 6)%nat -> (j < 6)%nat ->
  mm 6 (flat 6 (normal_projection_ss n)) (flat 6 (normal_projection_ss n)) i j = flat 6 (normal_projection_ss n) i j /\
  mm 6 (flat 6 (shear_projection_ss n)) (flat 6 (shear_projection_ss n)) i j = flat 6 (shear_projection_ss n) i j /\
  mm 6 (flat 6 (normal_projection_ss n)) (flat 6 (shear_projection_ss n)) i j = 0 /\
  mm 6 (flat 6 (shear_projection_ss n)) (flat 6 (normal_projection_ss n)) i j = 0.
Proof.
  intros U Hi Hj. set (s := delta j).
  assert (E1 : forall v, tnormal v n = tnormal v n) by reflexivity.
  pose proof (tnormal_2dy s n U) as T0. pose proof (tshear_normal s n U) as T1.
  assert (CN : forall k, (k < 6)%nat -> flat 6 (normal_projection_ss n) k j = tnormal s n * dy n n k) by (intros k Hk; rewrite <- normal_action by exact Hk; symmetry; apply mv_unit; exact Hj).
  assert (CS : forall k, (k < 6)%nat -> flat 6 (shear_projection_ss n) k j = 2 * dy (tshear s n) n k) by (intros k Hk; rewrite <- shear_action by exact Hk; symmetry; apply mv_unit; exact Hj).
  assert (TN : forall a, (a < 3)%nat -> traction (fun k => tnormal s n * dy n n k) n a = tnormal s n * n a).
  { intros a Ha. rewrite (traction_ext _ (fun k => vzero k - (- tnormal s n) * dy n n k - 0 * vzero k)) by first [exact Ha|intros k Hk; unfold vzero; cbv beta; ring].
    rewrite traction_lin by exact Ha. rewrite traction_dy by exact Ha. unfold unit3 in U. rewrite U.
    assert (Z : traction vzero n a = 0) by (rewrite traction_table by exact Ha; cases3 a Ha; unfold vzero; cbv beta iota; field). rewrite Z. field. }
  assert (TS : forall a, (a < 3)%nat -> traction (fun k => 2 * dy (tshear s n) n k) n a = tshear s n a).
  { intros a Ha. rewrite (traction_ext _ (fun k => vzero k - (-2) * dy (tshear s n) n k - 0 * vzero k)) by first [exact Ha|intros k Hk; unfold vzero; cbv beta; ring].
    rewrite traction_lin by exact Ha. rewrite traction_dy by exact Ha. rewrite T1. unfold unit3 in U. rewrite U.
    assert (Z : traction vzero n a = 0) by (rewrite traction_table by exact Ha; cases3 a Ha; unfold vzero; cbv beta iota; field). rewrite Z. field. }
  assert (NN : tnormal (fun k => tnormal s n * dy n n k) n = tnormal s n).
  { rewrite tnormal_sum, !TN by lia. unfold unit3 in U. cbn [rsum] in U. transitivity (tnormal s n * (0 + n 0%nat * n 0%nat + n 1%nat * n 1%nat + n 2%nat * n 2%nat)); [ring|rewrite U; ring]. }
  rewrite !mm_col. rewrite !(mv_ext6 _ _ _ i (fun k Hk => CN k Hk)), !(mv_ext6 _ _ _ i (fun k Hk => CS k Hk)). rewrite !normal_action, !shear_action by exact Hi. rewrite NN, T0. rewrite CN, CS by exact Hi.
  repeat split.
  - f_equal. apply dy_ext; [exact Hi|]. intros a Ha. unfold tshear at 1. rewrite TS, T0 by exact Ha. ring.
  - ring.
  - rewrite (dy_ext _ (fun _ => 0)); [rewrite dy_zero by exact Hi; ring|exact Hi|]. intros a Ha. unfold tshear. rewrite TN, NN by exact Ha. ring.
Qed.

(** *** Tractions on damaged planes *)
Lemma prod6_first m F v i : (i < 6)%nat -> exists w, mv 6 (prod6 (S m) F) v i = mv 6 (F 0%nat) w i /\ forall k, (k < 6)%nat -> mv 6 (prod6 (S m) F) v k = mv 6 (F 0%nat) w k.
Proof.
  intros Hi. assert (G : exists w, forall k, (k < 6)%nat -> mv 6 (prod6 (S m) F) v k = mv 6 (F 0%nat) w k).
  { clear i Hi. revert v. induction m as [|m IH]; intros v.
    - exists v. intros k Hk. cbn [prod6]. rewrite mv_mm6. apply mv_delta. exact Hk.
    - destruct (IH (mv 6 (F (S m)) v)) as [w Hw]. exists w. intros k Hk. change (prod6 (S (S m)) F) with (mm 6 (prod6 (S m) F) (F (S m))). rewrite mv_mm6. apply Hw. exact Hk. }
  destruct G as [w Hw]. exists w. split; [apply Hw; exact Hi|exact Hw].
Qed.
Lemma one_plane_traction L r pl q sh no s d sp i : p_n pl = 1%nat -> unit3 (p_normal pl 0%nat) -> (i < 3)%nat ->
  let n := p_normal pl 0%nat in
  traction (mv 6 (cd_P (planar L r pl q sh no) s d) sp) n i =
  (1 - t_map sh (d 0%nat) (tnormal s n)) * tshear sp n i + (1 - t_map no (d 0%nat) (tnormal s n)) * (tnormal sp n * n i).
Proof.
  intros Hn U Hi n. cbn [planar cd_P]. rewrite Hn. cbn [prod6].
  rewrite (traction_ext _ (mv 6 (pd_F sh no pl s d 0%nat) sp)) by (try exact Hi; intros k Hk; rewrite mv_mm6; apply mv_delta; exact Hk).
  unfold pd_F. cbv zeta. apply factor_traction; assumption.
Qed.
Lemma first_plane_free L r pl q sh no s d sp i : (0 < p_n pl)%nat -> unit3 (p_normal pl 0%nat) -> (i < 3)%nat ->
  t_map sh (d 0%nat) (tnormal s (p_normal pl 0%nat)) = 1 -> t_map no (d 0%nat) (tnormal s (p_normal pl 0%nat)) = 1 ->
  traction (mv 6 (cd_P (planar L r pl q sh no) s d) sp) (p_normal pl 0%nat) i = 0.
Proof.
  intros Hp U Hi H1 H2. cbn [planar cd_P]. destruct (p_n pl) as [|m] eqn:En; [lia|]. destruct (prod6_first m (pd_F sh no pl s d) sp 0%nat ltac:(lia)) as (w & _ & Hw).
  rewrite (traction_ext _ (mv 6 (pd_F sh no pl s d 0%nat) w)) by (try exact Hi; intros k Hk; apply Hw; exact Hk).
  unfold pd_F. cbv zeta. change (normal_stress s (p_normal pl 0%nat)) with (tnormal s (p_normal pl 0%nat)). rewrite H1, H2. rewrite factor_traction by assumption. ring.
Qed.
(** planes x and (3/5, 4/5, 0) *)
Definition two_planes : planes := {| p_n := 2; p_normal := fun j => match j with O => e1 | _ => fun i => match i with 0%nat => 3 / 5 | 1%nat => 4 / 5 | _ => 0 end end; p_sys := fun _ => nil |}.
Lemma half_half : sig_trial 1 1 (1 / 2) = 1 / 2.
Proof. rewrite trial_value by lra. replace (1 / (1 / 2) - 1) with 1 by field. rewrite Rpower_1 by lra. field. Qed.
Lemma sig_half ns : t_map (sigmoid 1 1 1) (1 / 2) ns = 1 / 2.
Proof. cbn. rewrite half_half. destruct (Rlt_dec (1 / 2) 0); [lra|]. destruct (Rlt_dec (1 / 2) 1); [|lra]. destruct (Rlt_dec 1 (1 / 2)); lra. Qed.
Lemma sig_one ns : t_map (sigmoid 1 1 1) 1 ns = 1.
Proof. cbn. destruct (Rlt_dec 1 0); [lra|]. destruct (Rlt_dec 1 1); lra. Qed.
Lemma second_plane_loaded L r q : exists d sp s,
  (forall j, (j < 2)%nat -> unit3 (p_normal two_planes j)) /\
  (forall ns, t_map (sigmoid 1 1 1) (d 1%nat) ns = 1) /\
  traction (mv 6 (cd_P (planar L r two_planes q (sigmoid 1 1 1) (sigmoid 1 1 1)) s d) sp) (p_normal two_planes 1%nat) 1%nat <> 0.
Proof.
  exists (fun j => match j with O => 1 / 2 | _ => 1 end), (dy (fun i => match i with 0%nat => - (4 / 5) | 1%nat => 3 / 5 | _ => 0 end) (fun i => match i with 0%nat => - (4 / 5) | 1%nat => 3 / 5 | _ => 0 end)), vzero.
  set (v := fun i : nat => match i with 0%nat => - (4 / 5) | 1%nat => 3 / 5 | _ => 0 end). split; [|split].
  - intros [|[|j]] Hj; [exact unit_e1| |lia]. unfold unit3. cbn. field.
  - intros ns. apply sig_one.
  - cbn [planar cd_P]. change (p_n two_planes) with 2%nat. cbn [prod6].
    set (F := pd_F (sigmoid 1 1 1) (sigmoid 1 1 1) two_planes vzero (fun j => match j with O => 1 / 2 | _ => 1 end)).
    set (n1 := p_normal two_planes 1%nat).
    assert (A1 : veq 6 (mv 6 (F 1%nat) (dy v v)) (dy v v)).
    { intros k Hk. unfold F, pd_F. cbv zeta. rewrite !sig_one. fold n1. rewrite factor_action by exact Hk.
      assert (TT : forall a, (a < 3)%nat -> traction (dy v v) n1 a = 0). { intros a Ha. rewrite traction_dy by exact Ha. unfold v, n1. cbn. field. }
      assert (TN : tnormal (dy v v) n1 = 0) by (rewrite tnormal_sum, !TT by lia; ring). rewrite TN.
      rewrite (dy_ext (tshear (dy v v) n1) (fun _ => 0)) by (try exact Hk; intros a Ha; unfold tshear; rewrite TT, TN by exact Ha; ring). rewrite dy_zero by exact Hk. ring. }
    rewrite (traction_ext _ (fun k => dy v v k - 1 * dy (tshear (dy v v) e1) e1 k - (1 / 2 * tnormal (dy v v) e1) * dy e1 e1 k)); [|lia|].
    + rewrite traction_lin by lia. rewrite !traction_dy by lia. unfold tshear. rewrite !tnormal_sum, !traction_dy by lia. cbn [rsum]. rewrite !traction_dy by lia. unfold v, n1, e1. cbn. lra.
    + intros k Hk. rewrite !mv_mm6. rewrite mv_delta by exact Hk. rewrite (mv_ext6 _ _ (dy v v)) by exact A1. unfold F, pd_F. cbv zeta. rewrite !sig_half. change (p_normal two_planes 0%nat) with e1.
      rewrite factor_action by exact Hk. field.
Qed.

(** *** The invertible states *)
Lemma sigmoid_invertible L r pl q c b c' b' s d : (forall j, (j < p_n pl)%nat -> unit3 (p_normal pl j)) -> 0 < b -> 0 < c -> 0 < b' -> 0 < c' ->
  ((exists B, inverse_of 6 B (cd_P (planar L r pl q (sigmoid c b 1) (sigmoid c' b' 1)) s d)) <-> forall j, (j < p_n pl)%nat -> d j < c /\ d j < c').
Proof.
  intros U Hb Hc Hb' Hc'. rewrite (planar_invertible L r pl q _ _ s d U). split; intros H j Hj; specialize (H j Hj); destruct H as [A B].
  - destruct (sigmoid_ends c b (d j) (tnormal s (p_normal pl j)) Hb Hc) as [_ E]. destruct (sigmoid_ends c' b' (d j) (tnormal s (p_normal pl j)) Hb' Hc') as [_ E']. split; apply Rnot_le_lt; intros X; [apply A, E, X|apply B, E', X].
  - destruct (sigmoid_ends c b (d j) (tnormal s (p_normal pl j)) Hb Hc) as [_ E]. destruct (sigmoid_ends c' b' (d j) (tnormal s (p_normal pl j)) Hb' Hc') as [_ E']. split; intros X; [apply E in X|apply E' in X]; lra.
Qed.
Lemma cutoff_invertible L r pl q c b cut c' b' cut' s d : (forall j, (j < p_n pl)%nat -> unit3 (p_normal pl j)) -> 0 < b -> 0 <= cut < 1 -> 0 < b' -> 0 <= cut' < 1 ->
  exists B, inverse_of 6 B (cd_P (planar L r pl q (sigmoid c b cut) (switch (sigmoid c' b' cut'))) s d).
Proof.
  intros U Hb Hc Hb' Hc'. apply (planar_invertible L r pl q _ _ s d U). intros j Hj. pose proof (sigmoid_range c b cut (d j) (tnormal s (p_normal pl j)) ltac:(lra) Hb).
  pose proof (sigmoid_range c' b' cut' (d j) (tnormal s (p_normal pl j)) ltac:(lra) Hb'). split; [lra|]. cbn [switch t_map]. destruct (Rlt_dec _ 0); lra.
Qed.
Lemma initial_undamaged L r pl c b cut c' b' cut' s a k : 0 < b -> 0 < c -> 0 <= cut -> 0 < b' -> 0 < c' -> 0 <= cut' -> (a < 6)%nat -> (k < 6)%nat ->
  cd_P (planar L r pl work_damage (sigmoid c b cut) (switch (sigmoid c' b' cut'))) s (cd_init (planar L r pl work_damage (sigmoid c b cut) (switch (sigmoid c' b' cut')))) a k = delta a k.
Proof.
  intros Hb Hc Hu Hb' Hc' Hu' Ha Hk. apply planar_undamaged; [|exact Ha|exact Hk]. intros j Hj. cbn.
  assert (Z : forall c b cut, 0 < b -> 0 < c -> 0 <= cut -> (if Rlt_dec 0 0 then 0 else if Rlt_dec 0 c then if Rlt_dec cut (sig_trial c b 0) then cut else sig_trial c b 0 else cut) = 0).
  { intros x y z Hy Hx Hz. destruct (Rlt_dec 0 0); [lra|]. destruct (Rlt_dec 0 x); [|lra]. rewrite trial_zero by exact Hy. destruct (Rlt_dec z 0); lra. }
  rewrite !Z by assumption. split; [reflexivity|]. match goal with |- (if ?x then _ else _) = _ => destruct x; reflexivity end.
Qed.
Lemma power_work_growth L g0 n res pl sh no s h d i : 0 <= g0 -> Forall (fun p => 0 < rs_str L (pl_rule g0 n res) h p 0%nat) (p_sys pl i) ->
  0 <= cd_rate (planar L (pl_rule g0 n res) pl work_damage sh no) s h d i.
Proof.
  intros Hg F. apply work_growth. revert F. apply Forall_impl. intros p Hp. unfold rs_slip. destruct (rs_gate L s p); [lra|]. apply (pl_direction g0 n _ _ Hg Hp).
Qed.

(** *** What fails *)
(** a transformation that follows the normal stress: the projection's reported derivative is not the derivative *)
Definition follows : trans := {| t_map := fun _ ns => ns; t_dd := fun _ _ => 0; t_dn := fun _ _ => 1 |}.
Definition ignores : trans := {| t_map := fun _ _ => 0; t_dd := fun _ _ => 0; t_dn := fun _ _ => 0 |}.
Lemma follows_exact : trans_exact follows (fun _ _ => True).
Proof. intros d ns t d' n' Hd Hn _. cbv beta. cbn [follows t_map t_dd t_dn]. apply (D_eq ns t n'); [exact Hn|]. rewrite Rmult_0_l, Rmult_1_l, Rplus_0_l. reflexivity. Qed.
Lemma ignores_exact : trans_exact ignores (fun _ _ => True).
Proof. intros d ns t d' n' Hd Hn _. cbv beta. cbn [ignores t_map t_dd t_dn]. eapply D_eq; [apply D_const|]. rewrite !Rmult_0_l, Rplus_0_l. reflexivity. Qed.
Definition one_plane : planes := {| p_n := 1; p_normal := fun _ => e1; p_sys := fun _ => nil |}.
Lemma projection_stress_wrong L r q (Q : vec -> vec -> Prop) : (exists s d, Q s d) -> ~ projection_exact (planar L r one_plane q follows ignores) Q.
Proof.
  intros (s & d & HQ) H.
  assert (Hs : path 6 (fun u k => s k + u * delta 0 k) 0 (delta 0)). { intros k Hk. eapply D_eq; [apply D_plus; [apply D_const|apply D_mult; [apply D_id|apply D_const]]|cbv beta; ring]. }
  assert (Hd : path 1 (fun _ : R => d) 0 (fun _ => 0)) by (intros k Hk; apply D_const).
  assert (HQ' : Q ((fun u k => s k + u * delta 0 k) 0) d). { cbv beta. replace (fun k => s k + 0 * delta 0 k) with s; [exact HQ|]. apply functional_extensionality. intros k. ring. }
  specialize (H _ _ 0 _ _ Hs Hd HQ' 4%nat 4%nat ltac:(lia) ltac:(lia)). cbv beta in H.
  assert (F1 : is_derive (fun u => cd_P (planar L r one_plane q follows ignores) (fun k => s k + u * delta 0 k) d 4%nat 4%nat) 0 (-1)).
  { apply (D_ext (fun u => 1 - (s 0%nat + u))).
    - intros u. cbn. unfold mm. cbn. unfold pd_F, pd_factor, normal_stress, r2_vec. cbv [flat]. cbn. unfold e1, delta. cbn. ring.
    - eapply D_eq; [apply D_minus; [apply D_const|apply D_plus; [apply D_const|apply D_id]]|cbv beta; ring]. }
  pose proof (is_derive_unique _ _ _ H) as U1. rewrite (is_derive_unique _ _ _ F1) in U1. revert U1. unfold cd_P_s, cd_P_h, planar. cbn. unfold middle_dot_before, middle_dot_after, pd_mid, outer_product_k, pd_dF, mm. cbv [flat]. cbn. unfold e1, delta. cbn. intros U1. lra.
Qed.

(** *** The kinematic model without damage *)
Definition reads6 (m : imodel) : Prop := forall x y g, veq 6 x y -> veq 6 (i_dp m x g) (i_dp m y g) /\ veq 3 (i_wp m x g) (i_wp m y g).
Lemma asaro_reads6 L r : reads6 (asaro L r).
Proof.
  intros x y g H. assert (T : forall p, rs_tau L x p = rs_tau L y p) by (intros p; unfold rs_tau, sym_contract; apply rsum_ext; intros k Hk; rewrite (H k Hk); reflexivity).
  assert (S : forall p, rs_slip L r x g p = rs_slip L r y g p) by (intros p; unfold rs_slip, rs_gate; rewrite T; reflexivity).
  split; intros k Hk; cbn [asaro i_dp i_wp]; apply rsum_ext; intros p Hp; rewrite S; reflexivity.
Qed.
Lemma power_reads6 A n : reads6 (power_inelasticity A n).
Proof.
  intros x y g H. split; [|intros k Hk; reflexivity]. intros k Hk. cbn [power_inelasticity i_dp].
  assert (T : sym_trace x = sym_trace y) by (unfold sym_trace; rewrite !H by lia; reflexivity).
  assert (D : veq 6 (sym_dev x) (sym_dev y)) by (intros j Hj; unfold sym_dev; rewrite (H j Hj), T; reflexivity).
  assert (E : pi_seq x = pi_seq y). { unfold pi_seq. f_equal. unfold sym_norm. f_equal. apply functional_extensionality. intros p. apply usym_ext. exact D. }
  unfold pi_dp. rewrite E. destruct (Rlt_dec (pi_seq y) eps); [reflexivity|]. rewrite (D k Hk). reflexivity.
Qed.
Lemma nil_identity m s h a b : dk_P m nil_damage s h a b = delta a b.
Proof. reflexivity. Qed.
Lemma nil_sp inv m s h : inverts inv -> veq 6 (dk_sp inv m nil_damage s h) s.
Proof. intros HI. apply undamaged_sp; [exact HI|]. intros. reflexivity. Qed.
Lemma nil_standard inv f m s d h : inverts inv -> reads6 m -> isotropic (flat 6 (f_C f)) -> inverse_of 6 (flat 6 (f_S f)) (flat 6 (f_C f)) -> forall i, (i < 6)%nat ->
  dk_rate inv f m nil_damage s d h i = sk_rate f m s d (dk_i m h) i.
Proof. intros HI HR HC HS i Hi. apply undamaged_isotropic; try assumption. intros. reflexivity. Qed.
(** ... not so with cubic elasticity *)
Definition cubicC : vec := fun p => if Nat.eqb (p / 6) (p mod 6) then (if Nat.ltb (p / 6) 3 then 1 else 1 / 2) else 0.
Lemma cubicC_acts s k : (k < 6)%nat -> mv 6 (flat 6 cubicC) s k = (if Nat.ltb k 3 then 1 else 1 / 2) * s k.
Proof. intros Hk. unfold mv, flat, cubicC. cases6 k Hk; cbn; field. Qed.
Lemma cubic_inverse : inverse_of 6 (flat 6 cubicS) (flat 6 cubicC).
Proof. intros i j Hi Hj. rewrite !mm_col. rewrite cubicS_acts, cubicC_acts by exact Hi. unfold flat, cubicS, cubicC, delta. cases6 i Hi; cases6 j Hj; cbn; split; field. Qed.
Lemma cubic_differs inv : inverts inv -> exists s d f h, inverse_of 6 (flat 6 (f_S f)) (flat 6 (f_C f)) /\
  dk_rate inv f (power_inelasticity 1 1) nil_damage s d h 0%nat <> sk_rate f (power_inelasticity 1 1) s d (dk_i (power_inelasticity 1 1) h) 0%nat.
Proof.
  intros HI. set (m := power_inelasticity 1 1).
  exists (delta 5), (fun _ => 0), {| f_spin := fun _ => 1; f_C := cubicC; f_S := cubicS |}, vzero. split; [exact cubic_inverse|].
  rewrite (undamaged_rate inv _ m nil_damage _ _ _ HI (fun a b _ _ => eq_refl) (power_reads6 1 1) 0%nat ltac:(lia)). unfold sk_rate. cbn [f_C f_S f_spin].
  set (X := vsub (fun _ => 0) (i_dp m (delta 5) (dk_i m vzero))).
  change (vsub X (net (sk_e {| f_spin := fun _ : nat => 1; f_C := cubicC; f_S := cubicS |} (delta 5)) (sk_O {| f_spin := fun _ : nat => 1; f_C := cubicC; f_S := cubicS |} m (delta 5) (dk_i m vzero))))
    with (fun k => X k - net (sk_e {| f_spin := fun _ : nat => 1; f_C := cubicC; f_S := cubicS |} (delta 5)) (sk_O {| f_spin := fun _ : nat => 1; f_C := cubicC; f_S := cubicS |} m (delta 5) (dk_i m vzero)) k).
  rewrite mv_minus6. rewrite (cubicC_acts (net _ _)) by lia. rewrite !net_table by lia. unfold sk_e. cbn [f_S]. rewrite !cubicS_acts by lia. clearbody X.
  unfold sk_O, vadd. cbn [f_spin]. unfold m. cbn [power_inelasticity i_wp]. unfold vzero2, vzero, delta. cbn. intros E. pose proof r2_pos. lra.
Qed.

(** *** The fixed spin *)
Lemma damaged_spin_value inv S m dm s w h k : (k < 3)%nat -> dk_spin inv S m dm s w h k = w k - i_wp m s (dk_i m h) k.
Proof. intros Hk. unfold dk_spin. cbv zeta. unfold vsub. rewrite sk_comm_zero by exact Hk. ring. Qed.
(** a lattice of one system on plane x *)
Definition lat1 : slat := {| l_n := 1; l_off := fun _ => 0%nat; l_loc := fun p => p; l_twin := fun _ => false;
  l_M := fun _ => delta 5; l_N := fun _ _ => 1; l_b := fun _ => 1 |}.
Definition rule1 : rule := pl_rule 1 1 (fixed_strength (fun _ => 1)).
Lemma lat1_wp s h k : i_wp (asaro lat1 rule1) s h k = s 5%nat.
Proof.
  cbn [asaro i_wp]. unfold lat1 at 1. cbn [l_n rsum]. unfold rs_slip, rs_gate. cbn [lat1 l_twin l_N andb]. unfold rs_tau, sym_contract. cbn. unfold pl_slip. cbn. unfold delta. cbn.
  replace (1 - 1) with 0 by ring. assert (C : forall x, cpow x 0 = 1). { intros x. unfold cpow. destruct (Rlt_dec 0 x); [apply Rpower_O; assumption|]. destruct (Req_EM_T 0 0); lra. }
  rewrite C. field.
Qed.
Definition one_system : planes := {| p_n := 1; p_normal := fun _ => e1; p_sys := fun _ => 0%nat :: nil |}.
Definition half_damage : cdamage := planar lat1 rule1 one_system work_damage (sigmoid 1 1 1) (sigmoid 1 1 1).
Lemma half_P m a b s : (a < 6)%nat -> (b < 6)%nat -> dk_P m half_damage s (fun _ => 1 / 2) a b = pd_factor (1 / 2) (1 / 2) e1 a b.
Proof.
  intros Ha Hb. unfold dk_P, half_damage. cbn [planar cd_P]. change (p_n one_system) with 1%nat. cbn [prod6].
  rewrite (mm_id_l 6 delta _ a b) by auto. unfold pd_F. cbv zeta. unfold dk_d. rewrite !sig_half. reflexivity.
Qed.
Lemma half_invertible m s : inverse_of 6 (pd_factor (1 - / (1 - 1 / 2)) (1 - / (1 - 1 / 2)) e1) (dk_P m half_damage s (fun _ => 1 / 2)).
Proof.
  pose proof (factor_inverse (1 / 2) (1 / 2) e1 unit_e1 ltac:(lra) ltac:(lra)) as F. intros a b Ha Hb. destruct (F a b Ha Hb) as [F1 F2]. split.
  - rewrite <- F1. apply mm_respects; [exact Ha|exact Hb|reflexivity|intros; apply half_P; assumption].
  - rewrite <- F2. apply mm_respects; [exact Ha|exact Hb|intros; apply half_P; assumption|reflexivity].
Qed.
Lemma half_sp inv m s k : inverts inv -> (k < 6)%nat -> dk_sp inv m half_damage s (fun _ => 1 / 2) k = (if Nat.eqb k 0 then 2 else if Nat.eqb k 4 then 2 else if Nat.eqb k 5 then 2 else 1) * s k.
Proof.
  intros HI Hk. unfold dk_sp. rewrite (mv_row _ (pd_factor (1 - / (1 - 1 / 2)) (1 - / (1 - 1 / 2)) e1)).
  - rewrite factor_action by exact Hk. rewrite !dy_table by exact Hk. unfold tshear. rewrite !tnormal_sum, !traction_table by lia. cbv beta iota. unfold e1. cbv beta iota. replace (1 - / (1 - 1 / 2)) with (-1) by field. cases6 k Hk; cbn [Nat.eqb]; r2ring.
  - intros j Hj. unfold dk_Pi. apply (inv_of inv); [exact HI|apply half_invertible|exact Hk|exact Hj].
Qed.
(** the plastic spin removed from the spin is not the one put back *)
Lemma damaged_spin_inconsistent inv S : inverts inv -> exists s w h, (exists B, inverse_of 6 B (dk_P (asaro lat1 rule1) half_damage s h)) /\
  dk_spin inv S (asaro lat1 rule1) half_damage s w h 0%nat <> w 0%nat - i_wp (asaro lat1 rule1) (dk_sp inv (asaro lat1 rule1) half_damage s h) (dk_i (asaro lat1 rule1) h) 0%nat.
Proof.
  intros HI. exists (delta 5), vzero, (fun _ => 1 / 2). split.
  - eexists. apply half_invertible.
  - rewrite damaged_spin_value by lia. rewrite !lat1_wp. rewrite half_sp by (exact HI || lia). unfold delta, vzero. cbn. lra.
Qed.
(** a rigid rotation of a damaged crystal changes the magnitude of its stress *)
Lemma rigid_spin_changes inv : inverts inv -> exists f m s h, (exists B, inverse_of 6 B (dk_P m half_damage s h)) /\ (forall x g k, i_dp m x g k = 0 /\ i_wp m x g k = 0) /\ dot 6 s (dk_rate inv f m half_damage s (fun _ => 0) h) <> 0.
Proof.
  intros HI. exists {| f_spin := fun _ => 1; f_C := cubicC; f_S := cubicS |}, (power_inelasticity 0 1), (fun k => match k with 1%nat => 1 | 5%nat => r2 | _ => 0 end), (fun _ => 1 / 2).
  assert (Z : forall x g k, i_dp (power_inelasticity 0 1) x g k = 0) by (intros; cbn; unfold pi_dp, vzero; destruct (Rlt_dec _ _); ring).
  split; [eexists; apply half_invertible|]. split; [intros; split; [apply Z|reflexivity]|]. set (m := power_inelasticity 0 1) in *. set (s := fun k : nat => match k with 1%nat => 1 | 5%nat => r2 | _ => 0 end).
  assert (E : forall i, (i < 6)%nat -> dk_rate inv {| f_spin := fun _ => 1; f_C := cubicC; f_S := cubicS |} m half_damage s (fun _ => 0) (fun _ => 1 / 2) i
     = - net (fun k => (if Nat.eqb k 0 then 2 else if Nat.eqb k 4 then 2 else if Nat.eqb k 5 then 2 else 1) * s k) (fun _ => 1) i).
  { intros i Hi. unfold dk_rate. cbv zeta. unfold vsub at 1.
    rewrite (mv_ext6 _ _ (fun _ => 0)).
    - rewrite mv_0. rewrite (net_ext _ (fun k => (if Nat.eqb k 0 then 2 else if Nat.eqb k 4 then 2 else if Nat.eqb k 5 then 2 else 1) * s k) _ (fun _ => 1) i); [ring| | |exact Hi].
      + intros k Hk. apply half_sp; assumption.
      + intros k Hk. unfold dk_O, vadd. cbn [f_spin]. unfold m. cbn [power_inelasticity i_wp]. unfold vzero2, vzero. ring.
    - intros k Hk. rewrite (mv_ext6 _ _ (fun _ => 0)); [apply mv_0|]. intros l Hl. unfold vsub. rewrite Z. ring. }
  unfold dot. rewrite (rsum_ext 6 _ (fun k => s k * - net (fun k => (if Nat.eqb k 0 then 2 else if Nat.eqb k 4 then 2 else if Nat.eqb k 5 then 2 else 1) * s k) (fun _ => 1) k)) by (intros k Hk; rewrite (E k Hk); reflexivity).
  cbn [rsum]. rewrite !net_table by lia. unfold s. cbv beta iota. cbn [Nat.eqb]. intros X. pose proof r2_sqr as Q. ring_simplify in X. nra.
Qed.
(** *** Elastic strain and elastic increment *)
Lemma damaged_estrain inv C S m dm s h : inverts inv -> (exists B, inverse_of 6 B (dk_P m dm s h)) -> inverse_of 6 (flat 6 S) (flat 6 C) ->
  veq 6 (mv 6 (dk_P m dm s h) (mv 6 (flat 6 C) (dk_estrain inv S m dm s h))) s.
Proof.
  intros HI HB HS i Hi. unfold dk_estrain.
  rewrite (mv_ext6 _ _ (mv 6 (dk_Pi inv m dm s h) s)).
  - rewrite <- mv_mm6. rewrite (mv_row _ delta); [apply mv_delta; exact Hi|]. intros j Hj. apply (HI _ HB i j Hi Hj).
  - intros k Hk. rewrite <- mv_mm6. rewrite (mv_row _ delta); [apply mv_delta; exact Hk|]. intros j Hj. apply (HS k j Hk Hj).
Qed.
Lemma damaged_increment f m dm s d h dt i : dk_increment (f_C f) m dm s d h dt i = mv 6 (dk_dd f m dm s h) d i * dt.
Proof.
  unfold dk_increment, dk_dd. rewrite mv_mm6.
  rewrite (mv_ext6 (dk_P m dm s h) _ (fun k => mv 6 (flat 6 (f_C f)) d k * dt)); unfold mv; [|intros k Hk]; rewrite <- rsum_scal_r; apply rsum_ext; intros; ring.
Qed.
(** *** Planar damage in the kinematic model *)
Lemma planar_stress_free L r pl q sh no s d i j k : normal_free sh -> normal_free no -> cd_P_s (planar L r pl q sh no) s d i j k = 0.
Proof.
  intros FS FN. cbn [planar cd_P_s]. rewrite (rsum_ext (p_n pl) _ (fun _ => 0)); [apply rsum_0|].
  intros x _. unfold middle_dot_before, middle_dot_after. cbn [rsum]. unfold pd_mid, outer_product_k. cbv zeta. rewrite FS, FN. ring.
Qed.
Lemma projection_exact_le dm (Q Q' : vec -> vec -> Prop) : (forall s d, Q' s d -> Q s d) -> projection_exact dm Q -> projection_exact dm Q'.
Proof. intros H HX s d t s' d' Hs Hd HQ. apply (HX s d t s' d' Hs Hd (H _ _ HQ)). Qed.
Lemma is_jac2_le k n m (P P' : vec -> vec -> Prop) F Ja Jb : (forall a b, P' a b -> P a b) -> is_jac2 k n m P F Ja Jb -> is_jac2 k n m P' F Ja Jb.
Proof. intros H J a b t va vb Ha Hb HP. apply (J a b t va vb Ha Hb (H _ _ HP)). Qed.
Definition planar_in (inv : mat -> mat) (m : imodel) (dm : cdamage) (pl : planes) (sh no : trans) (Pm : vec -> vec -> Prop) (Psh Pno : R -> R -> Prop) (s h : vec) : Prop :=
  Pm (dk_sp inv m dm s h) (dk_i m h) /\ forall j, (j < p_n pl)%nat -> let d := h (i_n m + j)%nat in let ns := tnormal s (p_normal pl j) in
    Psh d ns /\ Pno d ns /\ t_map sh d ns <> 1 /\ t_map no d ns <> 1.
Lemma planar_kinematics inv f m L r pl q sh no d Pm Psh Pno : inverts inv -> inelastic_exact m Pm -> (forall j, (j < p_n pl)%nat -> unit3 (p_normal pl j)) ->
  trans_exact sh Psh -> trans_exact no Pno -> normal_free sh -> normal_free no ->
  let dm := planar L r pl q sh no in
  is_jac2 6 6 (i_n m + p_n pl) (planar_in inv m dm pl sh no Pm Psh Pno)
    (fun s h => dk_rate inv f m dm s d h) (fun s h => dk_ds inv f m dm s d h) (fun s h => dk_dh inv f m dm s d h).
Proof.
  intros HI HE HU HS HN FS FN dm.
  pose proof (planar_stays L r pl q sh no Psh Pno HU HS HN) as ST. pose proof (planar_projection L r pl q sh no Psh Pno HS HN FS FN) as PR.
  refine (is_jac2_le _ _ _ _ _ _ _ _ _ (damaged_rate_exact inv f m dm Pm _ d HI HE _ ST)).
  - intros s h (A & B). split; [exact A|]. split; [|intros i j k _ _ _; apply planar_stress_free; assumption]. intros j Hj. apply (B j Hj).
  - eapply projection_exact_le; [|exact PR]. intros s x H j Hj. destruct (H j Hj) as (A & B & _). split; assumption.
Qed.
Definition loaded : vec := fun k => match k with 0%nat => 3 / 2 | 5%nat => r2 / 2 | _ => 0 end.
Lemma planar_in_case inv : inverts inv ->
  planar_in inv (power_inelasticity 1 3) half_damage one_system (sigmoid 1 1 1) (sigmoid 1 1 1) (fun s _ => eps < pi_seq s) (fun d _ => sig_in 1 1 1 d) (fun d _ => sig_in 1 1 1 d) loaded (fun _ => 1 / 2).
Proof.
  intros HI. split.
  - pose proof spin_seq as H. replace (pi_seq (dk_sp inv (power_inelasticity 1 3) half_damage loaded (fun _ => 1 / 2))) with (pi_seq spin_stress); [exact H|].
    assert (E : veq 6 spin_stress (dk_sp inv (power_inelasticity 1 3) half_damage loaded (fun _ => 1 / 2))).
    { intros k Hk. rewrite half_sp by assumption. unfold spin_stress, loaded. cases6 k Hk; cbn; field. }
    assert (T : sym_trace spin_stress = sym_trace (dk_sp inv (power_inelasticity 1 3) half_damage loaded (fun _ => 1 / 2))) by (unfold sym_trace; rewrite !E by lia; reflexivity).
    unfold pi_seq, sym_norm. f_equal. f_equal. apply functional_extensionality. intros p. apply usym_ext. intros k Hk. unfold sym_dev. rewrite (E k Hk), T. reflexivity.
  - intros j Hj. cbv zeta. rewrite !sig_half. assert (S : sig_in 1 1 1 (1 / 2)) by (right; left; split; [lra|]; rewrite half_half; lra). repeat split; try exact S; lra.
Qed.
