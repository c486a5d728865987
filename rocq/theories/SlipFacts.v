(** Signs, gates, the twin direction, the view of a built lattice, and the places
    where the promised behaviour fails. *)
From Verif Require Import Base.
From Verif Require Import Diff.
From Verif Require Import NemlMathModel.
From Verif Require Import TensorModel.
From Verif Require Import RotModel.
From Verif Require Import CrystModel.
From Verif Require Import CrystSpec.
From Verif Require Import CrystLattice.
From Verif Require Import Blocks.
From Verif Require Import SlipModel.
From Verif Require Import SlipSpec.
From Verif Require Import SlipProofs.
From Verif Require Import SlipRule.
From Verif Require Import SlipWhole.
From Coq Require Import List Lia Lra ZArith.
Import ListNotations.

(** *** The power law *)
Lemma pl_value g0 n tau st : 0 < st 0%nat -> 0 < n ->
  (0 < tau -> pl_slip g0 n tau st = g0 * Rpower (tau / st 0%nat) n) /\
  (tau < 0 -> pl_slip g0 n tau st = - (g0 * Rpower (- tau / st 0%nat) n)) /\
  (tau = 0 -> pl_slip g0 n tau st = 0).
Proof.
  intros Hs Hn. unfold pl_slip. repeat split; intros Ht.
  - assert (Hq : 0 < tau / st 0%nat) by (apply Rdiv_lt_0_compat; assumption).
    rewrite Rabs_pos_eq by lra. rewrite <- (cpow_pos _ n) by assumption. rewrite (cpow_step _ n) by assumption. field. lra.
  - assert (Hq : 0 < - tau / st 0%nat) by (apply Rdiv_lt_0_compat; lra).
    replace (tau / st 0%nat) with (- (- tau / st 0%nat)) by (field; lra). rewrite Rabs_Ropp, Rabs_pos_eq by lra.
    rewrite <- (cpow_pos _ n) by assumption. rewrite (cpow_step _ n) by assumption. field. lra.
  - rewrite Ht. unfold Rdiv. ring.
Qed.

Lemma pl_direction g0 n tau st : 0 <= g0 -> 0 < st 0%nat -> 0 <= tau * pl_slip g0 n tau st.
Proof.
  intros Hg Hs. unfold pl_slip.
  replace (tau * (g0 * tau / st 0%nat * cpow (Rabs (tau / st 0%nat)) (n - 1)))
    with (g0 * (tau * tau) / st 0%nat * cpow (Rabs (tau / st 0%nat)) (n - 1)) by (unfold Rdiv; ring).
  apply Rmult_le_pos; [|apply cpow_nonneg]. unfold Rdiv. apply Rmult_le_pos; [|left; apply Rinv_0_lt_compat; exact Hs].
  apply Rmult_le_pos; [exact Hg|]. apply Rle_0_sqr.
Qed.

Lemma pl_odd g0 n tau st : pl_slip g0 n (- tau) st = - pl_slip g0 n tau st.
Proof.
  unfold pl_slip. replace (- tau / st 0%nat) with (- (tau / st 0%nat)) by (unfold Rdiv; ring). rewrite Rabs_Ropp. unfold Rdiv. ring.
Qed.

(** *** The kinematic law *)
Lemma kin_inside g0 n tau st : Rabs (tau - st 0%nat) <= st 1%nat -> kin_slip g0 n tau st = 0.
Proof. intros H. unfold kin_slip, kin_over. destruct (Rle_dec _ 0); [reflexivity|lra]. Qed.

Lemma kin_direction g0 n tau st : 0 <= g0 -> 0 <= (tau - st 0%nat) * kin_slip g0 n tau st.
Proof.
  intros Hg. unfold kin_slip. destruct (Rle_dec _ 0); [rewrite Rmult_0_r; apply Rle_refl|].
  unfold copysign. rewrite Rabs_pos_eq by (apply Rmult_le_pos; [exact Hg|apply cpow_nonneg]).
  assert (0 <= g0 * cpow (kin_over tau st / st 2%nat) n) by (apply Rmult_le_pos; [exact Hg|apply cpow_nonneg]).
  destruct (Rlt_dec (tau - st 0%nat) 0).
  - replace ((tau - st 0%nat) * - (g0 * cpow (kin_over tau st / st 2%nat) n)) with ((- (tau - st 0%nat)) * (g0 * cpow (kin_over tau st / st 2%nat) n)) by ring.
    apply Rmult_le_pos; lra.
  - apply Rmult_le_pos; lra.
Qed.

Lemma kin_outside g0 n tau st : 0 < g0 -> 0 < st 2%nat -> st 1%nat < Rabs (tau - st 0%nat) -> 
  Rabs (kin_slip g0 n tau st) = g0 * Rpower ((Rabs (tau - st 0%nat) - st 1%nat) / st 2%nat) n /\ kin_slip g0 n tau st <> 0.
Proof.
  intros Hg Hf Ho. unfold kin_slip, kin_over. destruct (Rle_dec _ 0); [lra|].
  assert (HX : 0 < (Rabs (tau - st 0%nat) - st 1%nat) / st 2%nat) by (apply Rdiv_lt_0_compat; lra).
  rewrite (cpow_pos _ n HX). set (K := Rpower _ n). assert (HK : 0 < K) by apply exp_pos.
  assert (HgK : 0 < g0 * K) by (apply Rmult_lt_0_compat; assumption).
  unfold copysign. rewrite (Rabs_pos_eq (g0 * K)) by lra.
  destruct (Rlt_dec _ 0); [rewrite Rabs_Ropp|]; rewrite Rabs_pos_eq by lra; split; (reflexivity || lra).
Qed.

(** *** Twins never reverse *)
Lemma twin_gate L r s h p : l_twin L p = true -> rs_tau L s p < 0 ->
  rs_slip L r s h p = 0 /\ (forall c, rs_dslip_s L r s h p c = 0) /\ (forall x, rs_dslip_h L r s h p x = 0).
Proof.
  intros Ht Hn. unfold rs_slip, rs_dslip_s, rs_dslip_h, rs_dslip_hb, rs_gate. rewrite Ht. destruct (Rlt_dec _ 0); [|lra]. cbn. auto.
Qed.
Lemma twin_forward L r s h p : (forall tau st, (forall k, st k = rs_str L r h p k) -> 0 <= tau -> 0 <= r_slip r tau st) ->
  l_twin L p = true -> 0 <= rs_slip L r s h p.
Proof.
  intros Hr Ht. unfold rs_slip, rs_gate. rewrite Ht. cbn. destruct (Rlt_dec _ 0); [apply Rle_refl|]. apply Hr; [reflexivity|lra].
Qed.
Lemma twin_forward_power L g0 n res s h p : 0 <= g0 -> 0 < rs_str L (pl_rule g0 n res) h p 0%nat -> l_twin L p = true ->
  0 <= rs_slip L (pl_rule g0 n res) s h p.
Proof.
  intros Hg Hs Ht. apply twin_forward; [|exact Ht]. intros tau st Hst Htau. cbn.
  destruct (Req_dec tau 0) as [->|Hne]; [unfold pl_slip, Rdiv; right; ring|].
  rewrite <- Hst in Hs. pose proof (pl_direction g0 n tau st Hg Hs) as H.
  apply (Rmult_le_reg_l tau); [lra|]. rewrite Rmult_0_r. exact H.
Qed.

(** *** Which strength a system gets *)
Lemma strength_first L g0 n res h p : rs_str L (pl_rule g0 n res) h p 0%nat = h_tau res L (l_off L p) h.
Proof. unfold rs_str. cbn. rewrite Nat.add_0_r. reflexivity. Qed.
Lemma strength_uniform L r h p k : (forall a b g, h_tau (r_str r k) L a g = h_tau (r_str r k) L b g) ->
  rs_str L r h p k = h_tau (r_str r k) L p (bsub (r_sizes r) h k).
Proof. intros H. unfold rs_str. apply H. Qed.
Lemma plastic_uniform m L a b g : h_tau (plastic_slip m) L a g = h_tau (plastic_slip m) L b g.
Proof. reflexivity. Qed.
Lemma sum_plastic_uniform n m L a b g : h_tau (sum_plastic n m) L a g = h_tau (sum_plastic n m) L b g.
Proof. reflexivity. Qed.

(** Two systems in one group, numbered 0 and 1. *)
Definition lat2 : slat := {| l_n := 2; l_off := fun _ => 0%nat; l_loc := fun p => p; l_twin := fun _ => false;
  l_M := fun p => fun c => if Nat.eqb c (3 + p) then 1 else 0; l_N := fun _ => vzero; l_b := fun _ => 1 |}.
Definition fixed12 : hlaw := fixed_strength (fun p => if Nat.eqb p 0 then 1 else 2).
Lemma strength_wrong_system : rs_str lat2 (pl_rule 1 2 fixed12) vzero 1 0%nat <> h_tau fixed12 lat2 1 vzero.
Proof. unfold rs_str. cbn. lra. Qed.
(** ... and the slip rate of the second system is computed with the first one's strength. *)
Lemma slip_wrong_system : exists s, rs_tau lat2 s 1 = 2 /\ rs_slip lat2 (pl_rule 1 2 fixed12) s vzero 1%nat = 4 /\
  pl_slip 1 2 2 (fun _ => h_tau fixed12 lat2 1 vzero) = 1.
Proof.
  exists (fun c => if Nat.eqb c 4 then 2 else 0). 
  assert (Ht : rs_tau lat2 (fun c => if Nat.eqb c 4 then 2 else 0) 1 = 2) by (unfold rs_tau, sym_contract; cbn; ring).
  split; [exact Ht|]. unfold rs_slip, rs_gate. rewrite Ht. cbn. unfold pl_slip. cbn.
  replace (Rabs (2 / 1)) with 2 by (rewrite Rabs_pos_eq; lra). replace (Rabs (2 / 2)) with 1 by (rewrite Rabs_pos_eq; lra).
  rewrite !cpow_pos by lra. replace (2 - 1) with 1 by ring. rewrite !Rpower_1 by lra. split; field.
Qed.
(** Three strengths asked of a group with two systems. *)
Lemma strength_out_of_range : exists k, (k < r_n (kin_rule 1 2 fixed12 fixed12 fixed12))%nat /\ ~ (l_off lat2 1 + k < l_n lat2)%nat.
Proof. exists 2%nat. cbn. lia. Qed.

(** *** Hardening *)
Lemma general_linear_initial v L p : h_tau (general_linear v) L p (h_init (general_linear v)) = 2 * gl_tau0 v p.
Proof. cbn. ring. Qed.
Lemma simple_linear_initial v L p : h_tau (simple_linear v) L p (h_init (simple_linear v)) = sm_tau0 v p.
Proof. cbn. unfold vzero. rewrite (rsum_ext _ _ (fun _ => 0)) by (intros; ring). rewrite rsum_0. ring. Qed.
Lemma voce_initial v L p : h_tau (voce_per_system v) L p (h_init (voce_per_system v)) = vp_init v p.
Proof. reflexivity. Qed.
Lemma plastic_initial m L p : h_tau (plastic_slip m) L p (h_init (plastic_slip m)) = ps_init m + ps_static m + ps_nye m.
Proof. reflexivity. Qed.

(** Voce law of the total slip: hardens towards the saturation value and stops there. *)
Lemma voce_slip_direction ts b t0 ny L sl h : 0 < b ->
  (h 0%nat <= ts -> 0 <= h_rate (plastic_slip (voce_slip ts b t0 ny)) L sl h 0%nat) /\
  (ts <= h 0%nat -> h_rate (plastic_slip (voce_slip ts b t0 ny)) L sl h 0%nat <= 0).
Proof.
  intros Hb. cbn. assert (HS : 0 <= sum_slip L sl) by (unfold sum_slip; apply rsum_nonneg; intros; apply Rabs_pos).
  split; intros H.
  - apply Rmult_le_pos; [apply Rmult_le_pos; lra|exact HS].
  - assert (0 <= b * (h 0%nat - ts) * sum_slip L sl) by (apply Rmult_le_pos; [apply Rmult_le_pos; lra|exact HS]). lra.
Qed.
Lemma linear_slip_direction t0 k1 ny L sl h : 0 <= k1 -> 0 <= h_rate (plastic_slip (linear_slip t0 k1 ny)) L sl h 0%nat.
Proof.
  intros Hk. cbn. apply Rmult_le_pos; [exact Hk|]. unfold sum_slip. apply rsum_nonneg. intros. apply Rabs_pos.
Qed.
(** Frederick-Armstrong on a system: at +sat or -sat further slip in that direction adds nothing, and between them the
    back strength moves with the slip. *)
Lemma fa_limit v L sl h k : 0 < fa_sat v k -> 0 <= fa_k v k ->
  (h k = fa_sat v k -> h_rate (fa_slip v) L sl h k <= 0) /\ (h k = - fa_sat v k -> 0 <= h_rate (fa_slip v) L sl h k) /\
  (Rabs (h k) <= fa_sat v k -> 0 <= sl k * h_rate (fa_slip v) L sl h k).
Proof.
  intros Hs Hk. cbn. repeat split; intros H.
  - rewrite H. replace (fa_sat v k / fa_sat v k) with 1 by (field; lra). rewrite Rmult_1_l.
    assert (sl k <= Rabs (sl k)) by apply Rle_abs.
    assert (0 <= fa_k v k * (Rabs (sl k) - sl k)) by (apply Rmult_le_pos; lra). lra.
  - rewrite H. replace (- fa_sat v k / fa_sat v k) with (-1) by (field; lra).
    assert (- sl k <= Rabs (sl k)) by (rewrite <- Rabs_Ropp; apply Rle_abs).
    apply Rmult_le_pos; lra.
  - replace (sl k * (fa_k v k * (sl k - h k / fa_sat v k * Rabs (sl k)))) with (fa_k v k * (sl k * sl k - h k / fa_sat v k * (sl k * Rabs (sl k)))) by ring.
    apply Rmult_le_pos; [exact Hk|].
    assert (Hq : Rabs (h k / fa_sat v k * (sl k * Rabs (sl k))) <= sl k * sl k).
    { rewrite !Rabs_mult, Rabs_Rabsolu. unfold Rdiv. rewrite Rabs_mult, (Rabs_pos_eq (/ fa_sat v k)) by (left; apply Rinv_0_lt_compat; exact Hs).
      rewrite <- Rabs_mult with (x := sl k) (y := sl k). rewrite (Rabs_pos_eq (sl k * sl k)) by apply Rle_0_sqr.
      assert (Rabs (h k) * / fa_sat v k <= 1).
      { apply (Rmult_le_reg_r (fa_sat v k)); [exact Hs|]. rewrite Rmult_assoc, Rinv_l by lra. lra. }
      pose proof (Rle_0_sqr (sl k)) as Hsq. unfold Rsqr in Hsq.
      rewrite <- (Rmult_1_l (sl k * sl k)) at 2. apply Rmult_le_compat_r; assumption. }
    pose proof (Rle_abs (h k / fa_sat v k * (sl k * Rabs (sl k)))). lra.
Qed.
(** The per-system Voce law is driven by the signed slip: slip in the negative direction lowers the strength. *)
Lemma voce_ps_softens v L sl h k : 0 < vp_k v k -> 0 < vp_base v h k -> sl k < 0 -> h_rate (voce_per_system v) L sl h k < 0.
Proof.
  intros Hk Hb Hs. cbn. assert (0 < vp_k v k * cpow (vp_base v h k) (vp_m v k)) by (apply Rmult_lt_0_compat; [exact Hk|apply cpow_gt0; exact Hb]).
  assert (0 < vp_k v k * cpow (vp_base v h k) (vp_m v k) * - sl k) by (apply Rmult_lt_0_compat; lra). lra.
Qed.
(** Dislocation densities: the slip-system rate vanishes at the saturation density k1/k2; twin variables only grow. *)
Lemma lanl_direction v L sl h k :
  (l_twin L k = true -> 0 <= h_rate (lanl_ti v) L sl h k) /\
  (l_twin L k = false -> la_k2 v k * h k <= la_k1 v k -> 0 <= h_rate (lanl_ti v) L sl h k) /\
  (l_twin L k = false -> la_k1 v k <= la_k2 v k * h k -> h_rate (lanl_ti v) L sl h k <= 0).
Proof.
  cbn. pose proof (Rabs_pos (sl k)) as Ha. repeat split; intros E; rewrite E; [exact Ha|intros H|intros H].
  - apply Rmult_le_pos; [|exact Ha]. apply Rmult_le_pos; lra.
  - assert (0 <= / 2 * (la_k2 v k * h k - la_k1 v k) * Rabs (sl k)) by (apply Rmult_le_pos; [apply Rmult_le_pos; lra|exact Ha]). lra.
Qed.
(** SimpleLinear: rows by place in the group.  Two groups of one system each. *)
Definition lat11 : slat := {| l_n := 2; l_off := fun p => p; l_loc := fun _ => 0%nat; l_twin := fun _ => false;
  l_M := fun _ => vzero; l_N := fun _ => vzero; l_b := fun _ => 1 |}.
Lemma simple_linear_row_wrong : exists v h, sm_n v = l_n lat11 /\
  h_tau (simple_linear v) lat11 1 h <> rsum (sm_n v) (fun j => sm_G v 1%nat j * h j) + sm_tau0 v 1%nat.
Proof.
  exists {| sm_n := 2; sm_G := fun i j => INR i; sm_tau0 := vzero |}, (fun _ => 1). split; [reflexivity|].
  cbn. unfold vzero. lra.
Qed.

(** One system, one other history block: the slip rate u+1 (or -u-1) moves through that block only. *)
Definition lat1 (tw : bool) : slat := {| l_n := 1; l_off := fun _ => 0%nat; l_loc := fun p => p; l_twin := fun _ => tw;
  l_M := fun _ => vzero; l_N := fun _ => vzero; l_b := fun _ => 1 |}.
Lemma D_unique (f : R -> R) t a b : is_derive f t a -> is_derive f t b -> a = b.
Proof. intros Ha Hb. apply is_derive_unique in Ha. apply is_derive_unique in Hb. congruence. Qed.

Lemma dot_vzero n w : dot n w vzero = 0.
Proof. unfold dot, vzero. rewrite (rsum_ext _ _ (fun _ => 0)) by (intros; ring). apply rsum_0. Qed.
Lemma ext_probe tw m (P : rates -> vec -> Prop) c : c <> 0 -> h_n m = 1%nat -> P (fun _ => c) (fun _ => 0) -> rates_exact (lat1 tw) m 1 P ->
  is_derive (fun u => h_rate m (lat1 tw) (fun _ => c * (1 + u)) (fun _ => 0) 0%nat) 0 (h_rate_e m (lat1 tw) (fun _ => c) (fun _ _ => c) (fun _ => 0) 0%nat 0%nat).
Proof.
  intros Hc Hn HP H.
  assert (E1 : c * (1 + 0) = c) by ring.
  pose proof (H (fun u _ => c * (1 + u)) (fun _ _ => 0) 0 vzero vzero (fun _ => vzero) (fun _ => vzero) (fun _ => 1%nat) (fun _ _ _ => c) (fun _ _ => 1)) as K.
  cbv zeta in K.
  assert (Hv : dot 6 vzero vzero + dot (h_n m) vzero vzero + rsum 1 (fun _ => dot 1 (fun _ => c) (fun _ => 1)) = c).
  { rewrite !dot_vzero. unfold dot. cbn. ring. }
  cbv beta in K. eapply D_eq; [apply K|].
  - intros p _. eapply D_eq; [apply D_mult; [apply D_const|apply D_plus; [apply D_const|apply D_id]]|]. cbv beta. rewrite Hv. ring.
  - intros i _. apply D_const.
  - intros p _. left. rewrite E1. exact Hc.
  - rewrite E1. exact HP.
  - rewrite Hn. lia.
  - rewrite E1, !dot_vzero. unfold dot. cbn. ring.
Qed.

Definition voce_one : voceps := {| vp_n := 1; vp_init := fun _ => 0; vp_k := fun _ => 1; vp_sat := fun _ => 1; vp_m := fun _ => 1 |}.
Lemma ext_missing_voce : vp_n voce_one = l_n (lat1 false) /\ ~ rates_exact (lat1 false) (voce_per_system voce_one) 1 (voce_in voce_one).
Proof.
  split; [reflexivity|]. intros H. apply (ext_probe false _ _ 1) in H; [|lra|reflexivity|].
  2:{ intros k Hk. unfold vp_base. cbn. split; lra. }
  cbn in H. unfold ext_zero, vp_base in H. cbn in H.
  assert (K5 : is_derive (fun u => 1 * cpow (1 - (0 - 0) / (1 - 0)) 1 * (1 * (1 + u))) 0 1).
  { replace (1 - (0 - 0) / (1 - 0)) with 1 by field. rewrite cpow_pos by lra. rewrite Rpower_1 by lra.
    eapply D_eq; [apply D_mult; [apply D_const|apply D_mult; [apply D_const|apply D_plus; [apply D_const|apply D_id]]]|cbv beta; ring]. }
  pose proof (D_unique _ _ _ _ H K5). lra.
Qed.
Definition fa_one : fash := {| fa_n := 1; fa_k := fun _ => 1; fa_sat := fun _ => 1 |}.
Lemma ext_missing_fa : fa_n fa_one = l_n (lat1 false) /\ ~ rates_exact (lat1 false) (fa_slip fa_one) 1 (fa_in fa_one).
Proof.
  split; [reflexivity|]. intros H. apply (ext_probe false _ _ 1) in H; [|lra|reflexivity|].
  2:{ intros k Hk. cbn. lra. }
  cbn in H. unfold ext_zero in H.
  assert (K5 : is_derive (fun u => 1 * (1 * (1 + u) - 0 / 1 * Rabs (1 * (1 + u)))) 0 1).
  { eapply D_ext; [intros u; instantiate (1 := fun u => 1 + u); cbv beta; field|].
    eapply D_eq; [apply D_plus; [apply D_const|apply D_id]|ring]. }
  pose proof (D_unique _ _ _ _ H K5). lra.
Qed.
Definition lanl_one : lanl := {| la_n := 1; la_ns := 1; la_tau0 := vzero; la_C := fun _ _ => 0; la_mu := fun _ => 1; la_k1 := fun _ => 2; la_k2 := fun _ => 0; la_X := 1; la_ini := 1 |}.
Lemma ext_wrong_lanl : la_n lanl_one = l_n (lat1 false) /\ ~ rates_exact (lat1 false) (lanl_ti lanl_one) 1 (fun _ _ => True).
Proof.
  split; [reflexivity|]. intros H. apply (ext_probe false _ _ (-1)) in H; [|lra|reflexivity|exact I].
  cbn in H.
  assert (K5 : is_derive (fun u => / 2 * (2 - 0 * 0) * Rabs (-1 * (1 + u))) 0 1).
  { eapply D_eq; [apply D_mult; [apply D_const|]|].
    - apply (D_Rabs_neg (fun u => -1 * (1 + u))); [apply D_mult; [apply D_const|apply D_plus; [apply D_const|apply D_id]]|lra].
    - cbv beta. field. }
  pose proof (D_unique _ _ _ _ H K5). lra.
Qed.
(** A temperature-dependent Nye coefficient that vanishes at T = 0 is ignored. *)
Lemma nye_ignored : exists k T a, k T * sqrt (norm9 a) <> 0 /\ voce_nye k T (Some a) = 0.
Proof.
  exists (fun T => T), 1, (fun p => if Nat.eqb p 0 then 1 else 0). split.
  - unfold norm9, contract9. cbn. rewrite Rmult_1_l. apply Rgt_not_eq, sqrt_lt_R0, sqrt_lt_R0. lra.
  - unfold voce_nye, voce_use_nye. destruct (Req_EM_T 0 0); [reflexivity|contradiction].
Qed.
Lemma nye_used k T a : k 0 <> 0 -> voce_nye k T (Some a) = k T * sqrt (norm9 a) /\ voce_nye k T None = 0.
Proof. intros H. unfold voce_nye, voce_use_nye. destruct (Req_EM_T (k 0) 0); [contradiction|]. auto. Qed.

(** *** The average strength *)
Lemma average_uniform L r h c : (0 < r_n r)%nat -> (0 < l_n L)%nat ->
  (forall k p, (k < r_n r)%nat -> (p < l_n L)%nat -> h_tau (r_str r k) L p (bsub (r_sizes r) h k) = c) -> rs_strength L r h = c.
Proof.
  intros Hr HL H. unfold rs_strength.
  assert (Hc : forall n x, rsum n (fun _ => x) = INR n * x).
  { intros n x. induction n as [|n IH]; [cbn; ring|]. rewrite S_INR. cbn [rsum]. rewrite IH. ring. }
  rewrite (rsum_ext (r_n r) _ (fun _ => INR (l_n L) * c)).
  - rewrite Hc. field. split; apply not_0_INR; lia.
  - intros k Hk. rewrite (rsum_ext (l_n L) _ (fun _ => c)) by (intros p Hp; apply H; assumption). apply Hc.
Qed.

(** *** The view of a built lattice *)
Lemma grp_size_at L g G : nth_error (la_groups L) g = Some G -> grp_size L g = length (g_sys G).
Proof. intros H. unfold grp_size, nslip. rewrite H. reflexivity. Qed.
Lemma boff_total L g : (g <= ngroup L)%nat -> boff (grp_size L) g = total (firstn g (sizes L)).
Proof.
  intros Hg. induction g as [|g IH]; [reflexivity|]. cbn [boff]. rewrite IH by lia.
  destruct (nth_error (la_groups L) g) as [G|] eqn:E.
  2:{ apply nth_error_None in E. unfold ngroup in Hg. lia. }
  rewrite (grp_size_at L g G E).
  assert (E2 : nth_error (sizes L) g = Some (length (g_sys G))) by (unfold sizes; rewrite nth_error_map, E; reflexivity).
  assert (Hf : forall (l : list nat) n x, nth_error l n = Some x -> firstn (S n) l = firstn n l ++ [x]).
  { induction l as [|a l IHl]; intros [|n] x Hx; cbn in *; try discriminate; [congruence|]. f_equal. apply IHl. exact Hx. }
  rewrite (Hf _ _ _ E2), total_app. cbn [total]. lia.
Qed.

(** For a lattice built with the library's calls, the view has the lattice's
    number of systems, and at the flat number of (g,i) it shows that system. *)
Lemma view_ok hash m2d m2p ops L Q : built hash m2d m2p ops L ->
  l_n (view L Q) = ntotal L /\
  forall g i s p, get_sys L g i = Some s -> lflat L g i = Some p ->
    l_M (view L Q) p = rotM Q s /\ l_N (view L Q) p = rotN Q s /\ l_b (view L Q) p = norm3 (s_burgers s) /\
    l_loc (view L Q) p = i /\ lflat L g 0 = Some (l_off (view L Q) p) /\
    option_map g_twin (nth_error (la_groups L) g) = Some (l_twin (view L Q) p) /\ (p < l_n (view L Q))%nat.
Proof.
  intros HB. pose proof (built_ok _ _ _ _ _ HB) as (Hlen & Hoff & _). split.
  - cbn [view l_n]. rewrite boff_total by lia. rewrite ntotal_total. unfold ngroup.
    replace (length (la_groups L)) with (length (sizes L)) by (unfold sizes; apply map_length). now rewrite firstn_all.
  - intros g i s p Hs Hp. unfold get_sys in Hs. destruct (nth_error (la_groups L) g) as [G|] eqn:EG; [|discriminate].
    assert (Hg : (g < ngroup L)%nat) by (unfold ngroup; apply nth_error_Some; congruence).
    assert (Hi : (i < grp_size L g)%nat) by (rewrite (grp_size_at L g G EG); apply nth_error_Some; congruence).
    unfold lflat in *. destruct (nth_error (la_offsets L) g) as [o|] eqn:EO; [|discriminate]. cbn in Hp. injection Hp as <-.
    rewrite (Hoff g o EO), <- boff_total by lia.
    assert (Eb : bblk (grp_size L) (ngroup L) (boff (grp_size L) g + i) = g) by (apply bblk_at; assumption).
    assert (Ep : bpos (grp_size L) (ngroup L) (boff (grp_size L) g + i) = i) by (apply bpos_at; assumption).
    assert (Es : sys_at L (boff (grp_size L) g + i) = s).
    { unfold sys_at. rewrite Eb, Ep. unfold get_sys. rewrite EG, Hs. reflexivity. }
    cbn [view l_M l_N l_b l_loc l_off l_twin l_n]. rewrite Es, Eb, Ep. unfold grp_twin. rewrite EG. cbn.
    repeat split; try reflexivity.
    + f_equal. lia.
    + apply boff_lt; assumption.
Qed.

(** *** The power law is regular everywhere with exponent above one and positive strengths *)
Lemma pl_regular L g0 n res s h : 1 < n -> 
  (forall p, (p < l_n L)%nat -> (l_off L p < l_n L)%nat /\ 0 < rs_str L (pl_rule g0 n res) h p 0%nat) ->
  slip_in L (pl_rule g0 n res) (pl_in n) (fun _ _ => True) s h /\ abs_safe L (pl_rule g0 n res) s h.
Proof.
  intros Hn H.
  assert (Z : forall p, rs_tau L s p = 0 -> pl_slip g0 n (rs_tau L s p) (rs_str L (pl_rule g0 n res) h p) = 0 /\
    pl_dtau g0 n (rs_tau L s p) (rs_str L (pl_rule g0 n res) h p) = 0 /\ forall k, pl_dstr g0 n (rs_tau L s p) (rs_str L (pl_rule g0 n res) h p) k = 0).
  { intros p E. rewrite E. unfold pl_slip, pl_dtau, pl_dstr. unfold Rdiv. rewrite !Rmult_0_l, Rabs_R0, (cpow_zero (n - 1)) by lra.
    repeat split; intros; ring. }
  split.
  - split; [trivial|]. intros p Hp. destruct (H p Hp) as [Ho Hs]. split; [split; [exact Hs|right; exact Hn]|]. split.
    + intros k Hk. cbn in Hk. assert (k = 0)%nat by lia. subst k. rewrite Nat.add_0_r. exact Ho.
    + intros _. destruct (Req_dec (rs_tau L s p) 0) as [E|E]; [right|left; exact E]. destruct (Z p E) as (A & B & C). split; [exact A|]. split; [exact B|]. intros k _. apply C.
  - intros p Hp. destruct (H p Hp) as [Ho Hs].
    destruct (Req_dec (rs_slip L (pl_rule g0 n res) s h p) 0) as [E|E]; [right|left; exact E].
    unfold rs_slip, rs_dslip_s, rs_dslip_h, rs_dslip_hb in *. destruct (rs_gate L s p); [auto|].
    change (r_dtau (pl_rule g0 n res)) with (pl_dtau g0 n). change (r_dstr (pl_rule g0 n res)) with (pl_dstr g0 n).
    change (r_slip (pl_rule g0 n res)) with (pl_slip g0 n) in E. unfold pl_slip in E.
    destruct (Req_dec (rs_tau L s p) 0) as [Et|Et].
    + destruct (Z p Et) as (A & B & C). rewrite B. split; intros; [ring|rewrite C; ring].
    + assert (Hq : 0 < Rabs (rs_tau L s p / rs_str L (pl_rule g0 n res) h p 0%nat)).
      { apply Rabs_pos_lt. unfold Rdiv. apply Rmult_integral_contrapositive_currified; [exact Et|apply Rinv_neq_0_compat; lra]. }
      assert (Hg : g0 = 0).
      { pose proof (cpow_gt0 _ (n - 1) Hq) as Hc. apply Rmult_integral in E. destruct E as [E|E]; [|lra].
        unfold Rdiv in E. apply Rmult_integral in E. destruct E as [E|E]; [|exfalso; pose proof (Rinv_0_lt_compat _ Hs); lra].
        apply Rmult_integral in E. destruct E as [E|E]; [exact E|contradiction]. }
      unfold pl_dtau, pl_dstr. rewrite Hg. split; intros; unfold Rdiv; ring.
Qed.

(** ... so a power-law crystal with any exact hardening law has exact
    derivatives at every stress, zero included. *)
Lemma pl_crystal L g0 n res Pr : 1 < n -> (forall p, (p < l_n L)%nat -> (l_off L p < l_n L)%nat) ->
  strength_exact L res (fun _ => True) -> rates_exact L res 0 Pr ->
  let r := pl_rule g0 n res in
  let ok := fun s h => (forall p, (p < l_n L)%nat -> 0 < h_tau res L (l_off L p) h) /\ Pr (rs_slip L r s h) h in
  is_jac2 (l_n L) 6 (h_n res) ok (rs_slip L r) (rs_dslip_s L r) (rs_dslip_h L r) /\
  is_jac2 (h_n res) 6 (h_n res) ok (rs_rate L r) (rs_rate_s L r) (rs_rate_h L r).
Proof.
  intros Hn Ho HS HR r ok. assert (En : r_nh r = h_n res) by reflexivity.
  assert (Eb : forall h k, bsub (r_sizes r) h 0 k = h k) by (intros; reflexivity).
  assert (X : forall s h, ok s h -> slip_in L r (pl_in n) (fun _ _ => True) s h /\ abs_safe L r s h /\
     forall k, (k < r_n r)%nat -> Pr (rs_slip L r s h) (bsub (r_sizes r) h k)).
  { intros s h [H1 H2]. destruct (pl_regular L g0 n res s h Hn) as [A B].
    - intros p Hp. split; [apply Ho; exact Hp|]. rewrite strength_first. apply H1. exact Hp.
    - split; [exact A|]. split; [exact B|]. intros k Hk. assert (k = 0)%nat by (cbn in Hk; lia). subst k. exact H2. }
  split.
  - pose proof (slip_whole L r (pl_in n) (fun _ _ => True) (pl_scalar g0 n res) (fun k _ => HS)) as W.
    rewrite En in W. intros s h t vs vh Hs Hh Hk. apply W; try assumption. apply X. exact Hk.
  - pose proof (rate_whole L r (pl_in n) (fun _ _ => True) (fun _ => Pr) (pl_scalar g0 n res) (fun k _ => HS) (fun k _ => HR)) as W.
    rewrite En in W. intros s h t vs vh Hs Hh Hk. apply W; try assumption. apply X. exact Hk.
Qed.
