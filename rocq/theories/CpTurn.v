(** Turning a crystal and its load; signs; what the code gets wrong. *)
From Verif Require Import Base.
From Verif Require Import Diff.
From Verif Require Import NemlMathModel.
From Verif Require Import NemlMathSpec.
From Verif Require Import NemlMathProofs.
From Verif Require Import RotModel.
From Verif Require Import RotSpec.
From Verif Require Import RotProofs.
From Verif Require Import RotTensor.
From Verif Require Import TensorModel.
From Verif Require Import TensorSpec.
From Verif Require Import TensorProofs.
From Verif Require Import CrystModel.
From Verif Require Import Blocks.
From Verif Require Import SlipModel.
From Verif Require Import SlipSpec.
From Verif Require Import SlipProofs.
From Verif Require Import SlipRule.
From Verif Require Import SlipWhole.
From Verif Require Import SlipFacts.
From Verif Require Import CpModel.
From Verif Require Import CpSpec.
From Verif Require Import CpProofs.
From Verif Require Import CpComb.
From Verif Require Import CpFacts.
From Coq Require Import Lia Lra List Bool FunctionalExtensionality.
Import ListNotations.

(** *** Turning *)
Lemma turn2_prod (M A B : nat -> nat -> R) : (forall k l, (k < 3)%nat -> (l < 3)%nat -> rsum 3 (fun i => M i k * M i l) = delta k l) ->
  forall i j, mm 3 (turn2 M A) (turn2 M B) i j = turn2 M (mm 3 A B) i j.
Proof.
  intros H i j. unfold mm.
  transitivity (rsum 3 (fun m => rsum 3 (fun n => rsum 3 (fun o => rsum 3 (fun p => M i m * A m n * B o p * M j p * rsum 3 (fun k => M k n * M k o)))))).
  - unfold turn2. cbn [rsum]. ring.
  - transitivity (rsum 3 (fun m => rsum 3 (fun n => rsum 3 (fun o => rsum 3 (fun p => M i m * A m n * B o p * M j p * delta n o))))).
    + apply rsum_ext; intros m Hm. apply rsum_ext; intros n Hn. apply rsum_ext; intros o Ho. apply rsum_ext; intros p Hp. rewrite H by assumption. reflexivity.
    + unfold turn2, delta. cbn. ring.
Qed.
Lemma turn2_comm (M A B : nat -> nat -> R) : (forall k l, (k < 3)%nat -> (l < 3)%nat -> rsum 3 (fun i => M i k * M i l) = delta k l) ->
  forall i j, commutator (turn2 M A) (turn2 M B) i j = turn2 M (commutator A B) i j.
Proof.
  intros H i j. unfold commutator at 1. rewrite !turn2_prod by exact H. unfold turn2. rewrite <- rsum_minus. apply rsum_ext; intros m Hm.
  rewrite <- rsum_minus. apply rsum_ext; intros n Hn. unfold commutator. ring.
Qed.
Lemma commutator_ext A B A' B' i j : meq3 A A' -> meq3 B B' -> (i < 3)%nat -> (j < 3)%nat -> commutator A B i j = commutator A' B' i j.
Proof. intros HA HB Hi Hj. unfold commutator, mm. f_equal; apply rsum_ext; intros k Hk; rewrite !HA, !HB by assumption; reflexivity. Qed.

Lemma net_turn q e w : unitq q -> veq 6 (net (apply_sym q e) (apply_skew q w)) (apply_sym q (net e w)).
Proof.
  intros H. apply usym_inj. intros i j Hi Hj. rewrite net_full by assumption. rewrite apply_sym_full by assumption.
  rewrite (turn2_ext2 _ _ (commutator (t2 (usym e)) (t2 (uskew w))) (fun a b Ha Hb => net_full e w a b Ha Hb)) by assumption.
  rewrite <- turn2_comm by (apply rot_colsM; exact H).
  apply commutator_ext; try assumption; intros a b Ha Hb; [apply apply_sym_full|apply apply_skew_full]; assumption.
Qed.

(** apply_sym and apply_skew are linear. *)
Lemma sym_matrix q d k : (k < 6)%nat -> apply_sym q d k = mv 6 (flat 6 (mandel_rot (to_matrix q))) d k.
Proof. intros Hk. symmetry. apply mandel_rot_acts. exact Hk. Qed.
Lemma apply_sym_ext q a b k : veq 6 a b -> (k < 6)%nat -> apply_sym q a k = apply_sym q b k.
Proof. intros H Hk. rewrite !sym_matrix by exact Hk. apply veq_mv. exact H. Qed.
Lemma apply_sym_sum q n (c : nat -> R) (V : nat -> vec) k : (k < 6)%nat ->
  apply_sym q (fun i => rsum n (fun p => c p * V p i)) k = rsum n (fun p => c p * apply_sym q (V p) k).
Proof.
  intros Hk. rewrite sym_matrix by exact Hk. unfold mv.
  rewrite (rsum_ext 6 _ (fun j => rsum n (fun p => c p * (flat 6 (mandel_rot (to_matrix q)) k j * V p j)))).
  - rewrite rsum_swap. apply rsum_ext. intros p Hp. rewrite rsum_scal. f_equal. rewrite sym_matrix by exact Hk. reflexivity.
  - intros j Hj. rewrite <- rsum_scal. apply rsum_ext. intros p Hp. ring.
Qed.
Lemma apply_sym_minus q a b k : (k < 6)%nat -> apply_sym q (vsub a b) k = apply_sym q a k - apply_sym q b k.
Proof. intros Hk. rewrite !sym_matrix by exact Hk. unfold mv, vsub. rewrite <- rsum_minus. apply rsum_ext. intros; ring. Qed.
Lemma apply_skew_ext q a b k : veq 3 a b -> (k < 3)%nat -> apply_skew q a k = apply_skew q b k.
Proof. intros H Hk. unfold apply_skew. rewrite !(H 0%nat), !(H 1%nat), !(H 2%nat) by lia. reflexivity. Qed.
Lemma apply_skew_lin q x y c k : apply_skew q (fun i => x i + c * y i) k = apply_skew q x k + c * apply_skew q y k.
Proof. unfold apply_skew. cbv zeta. destruct k as [|[|k]]; ring. Qed.
Lemma apply_skew_0 q k : apply_skew q (fun _ => 0) k = 0.
Proof. unfold apply_skew. cbv zeta. destruct k as [|[|k]]; ring. Qed.
Lemma apply_skew_sum q n (c : nat -> R) (V : nat -> vec) k :
  apply_skew q (fun i => rsum n (fun p => c p * V p i)) k = rsum n (fun p => c p * apply_skew q (V p) k).
Proof. induction n as [|n IH]; cbn [rsum]; [apply apply_skew_0|]. rewrite apply_skew_lin, IH. reflexivity. Qed.

Lemma view_turned q L Q : unitq q -> unitq Q -> turned_lattice q (view L Q) (view L (qmul q Q)).
Proof.
  intros Hq HQ. repeat (split; [reflexivity|]). split; intros p.
  - apply apply_sym_mul; assumption.
  - apply apply_skew_mul; assumption.
Qed.

Lemma contract_dot a b : sym_contract a b = dot 6 a b.
Proof. reflexivity. Qed.
Lemma tau_turned q L L' s p : unitq q -> turned_lattice q L L' -> rs_tau L' (apply_sym q s) p = rs_tau L s p.
Proof.
  intros Hq (_ & _ & _ & _ & _ & HM & _). unfold rs_tau. rewrite (contract_dot (l_M L p) s), (contract_dot (l_M L' p)). rewrite <- (apply_sym_inner q (l_M L p) s Hq).
  unfold dot. apply rsum_ext. intros i Hi. rewrite (HM p i Hi). reflexivity.
Qed.
Lemma slip_turned q L L' r s h p : unitq q -> turned_lattice q L L' -> (forall k, (k < r_n r)%nat -> frame_blind (r_str r k)) ->
  (forall tau st st', (forall k, (k < r_n r)%nat -> st k = st' k) -> r_slip r tau st = r_slip r tau st') ->
  rs_slip L' r (apply_sym q s) h p = rs_slip L r s h p.
Proof.
  intros Hq HL HB Hr. pose proof (tau_turned q L L' s p Hq HL) as Et. destruct HL as (E1 & E2 & E3 & E4 & E5 & _).
  unfold rs_slip, rs_gate. rewrite Et, E4. destruct (_ && _); [reflexivity|]. apply Hr. intros k Hk. unfold rs_str. rewrite E2.
  destruct (HB k Hk L L' E1 E2 E3 E4 E5) as [E _]. rewrite E. reflexivity.
Qed.
Lemma asaro_turned q L L' r : unitq q -> turned_lattice q L L' -> (forall k, (k < r_n r)%nat -> frame_blind (r_str r k)) ->
  (forall tau st st', (forall k, (k < r_n r)%nat -> st k = st' k) -> r_slip r tau st = r_slip r tau st') ->
  turned_model q (asaro L r) (asaro L' r).
Proof.
  intros Hq HL HB Hr. split; [reflexivity|]. intros s h. pose proof HL as (E1 & E2 & E3 & E4 & E5 & HM & HN). split; [|split].
  - intros k Hk. cbn [asaro i_dp]. rewrite (apply_sym_sum q (l_n L) (rs_slip L r s h) (l_M L) k Hk). rewrite <- E1. apply rsum_ext. intros p Hp.
    rewrite (slip_turned q L L' r s h p Hq HL HB Hr). rewrite (HM p k Hk). reflexivity.
  - intros k Hk. cbn [asaro i_wp].
    assert (EE : apply_skew q (fun k0 => rsum (l_n L) (fun p => if l_twin L p then 0 else rs_slip L r s h p * l_N L p k0)) k
      = apply_skew q (fun i => rsum (l_n L) (fun p => (if l_twin L p then 0 else rs_slip L r s h p) * l_N L p i)) k).
    { apply apply_skew_ext; [|exact Hk]. intros a Ha. apply rsum_ext. intros p Hp. destruct (l_twin L p); ring. }
    rewrite EE, apply_skew_sum, <- E1. apply rsum_ext. intros p Hp. rewrite <- E4.
    rewrite (slip_turned q L L' r s h p Hq HL HB Hr). rewrite (HN p k Hk). destruct (l_twin L p); ring.
  - intros x Hx. cbn [asaro i_rate i_n] in *. unfold rs_rate. destruct (locate_back (r_sizes r) (r_n r) x Hx) as (Hb & _ & _).
    destruct (HB _ Hb L L' E1 E2 E3 E4 E5) as [_ E]. symmetry. apply E. intros p. symmetry. apply (slip_turned q L L' r s h p Hq HL HB Hr).
Qed.

(** The stress rate of a turned crystal under a turned load is the turned stress rate. *)
Lemma rate_turned q m m' C S s0 w h0 s d h : unitq q -> turned_model q m m' ->
  let f := sk_decouple C S m s0 w h0 in
  let f' := {| f_spin := sk_spin (rowmajor 6 (apply_ss q (flat 6 S))) m' (apply_sym q s0) (apply_skew q w) h0;
               f_C := rowmajor 6 (apply_ss q (flat 6 C)); f_S := rowmajor 6 (apply_ss q (flat 6 S)) |} in
  veq 3 (f_spin f') (apply_skew q (f_spin f)) /\
  veq 6 (sk_rate f' m' (apply_sym q s) (apply_sym q d) h) (apply_sym q (sk_rate f m s d h)).
Proof.
  intros Hq [HN HT] f f'.
  assert (HF : forall (X : mat) v i, (i < 6)%nat -> mv 6 (flat 6 (rowmajor 6 X)) v i = mv 6 X v i).
  { intros X v i Hi. unfold mv. apply rsum_ext. intros j Hj. unfold flat, rowmajor. replace ((6 * i + j) / 6)%nat with i; [replace ((6 * i + j) mod 6)%nat with j; [reflexivity|]|].
    - rewrite Nat.add_comm, Nat.mul_comm, Nat.mod_add by lia. symmetry. apply Nat.mod_small. exact Hj.
    - rewrite Nat.add_comm, Nat.mul_comm, Nat.div_add by lia. rewrite Nat.div_small by exact Hj. reflexivity. }
  assert (HS : veq 3 (f_spin f') (apply_skew q (f_spin f))).
  { intros k Hk. unfold f', f. cbn [f_spin sk_decouple]. rewrite spin_value by exact Hk. destruct (HT s0 h0) as (_ & E & _). rewrite (E k Hk).
    rewrite (apply_skew_ext q (sk_spin S m s0 w h0) (fun i => w i + (-1) * i_wp m s0 h0 i) k); [rewrite apply_skew_lin; ring| |exact Hk].
    intros i Hi. rewrite spin_value by exact Hi. ring. }
  split; [exact HS|]. intros i Hi. destruct (HT s h) as (E1 & E2 & _).
  unfold sk_rate. rewrite <- (apply_ss_acts q (flat 6 C) _ Hq i Hi). cbn [f' f_C f sk_decouple]. rewrite HF by exact Hi. apply veq_mv. intros k Hk.
  rewrite !apply_sym_minus by exact Hk. unfold vsub. rewrite (E1 k Hk). f_equal. rewrite <- (net_turn q _ _ Hq k Hk). apply net_ext; [| |exact Hk].
  - intros a Ha. unfold sk_e. cbn [f' f_S f sk_decouple]. rewrite HF by exact Ha. apply (apply_ss_acts q (flat 6 S) s Hq a Ha).
  - intros a Ha. unfold sk_O, vadd. rewrite (HS a Ha), (E2 a Ha). 
    rewrite (apply_skew_ext q (fun i0 => f_spin f i0 + i_wp m s h i0) (fun i0 => f_spin f i0 + 1 * i_wp m s h i0) a); [rewrite apply_skew_lin; ring| |exact Ha]. intros b Hb. ring.
Qed.

Ltac blind := intros L L' E1 E2 E3 E4 E5; split; cbn; [rewrite ?E1, ?E2, ?E3, ?E4, ?E5; reflexivity|intros sl sl' h k Es; rewrite ?E1, ?E2, ?E3, ?E4, ?E5; rewrite ?Es; try reflexivity].
Lemma blind_laws :
  (forall s, frame_blind (fixed_strength s)) /\ (forall v, frame_blind (voce_per_system v)) /\ (forall v, frame_blind (fa_slip v)) /\
  (forall v, frame_blind (general_linear v)) /\ (forall v, frame_blind (simple_linear v)) /\ (forall v, frame_blind (lanl_ti v)) /\
  (forall m, frame_blind (plastic_slip m)) /\ (forall n m, frame_blind (sum_plastic n m)).
Proof.
  split; [|split; [|split; [|split; [|split; [|split; [|split]]]]]].
  - intros s. blind.
  - intros v. blind.
  - intros v. blind.
  - intros v. blind. apply rsum_ext. intros p Hp. rewrite Es. reflexivity.
  - intros v. intros L L' E1 E2 E3 E4 E5; split; [|intros sl sl' h k Es; cbn; rewrite Es; reflexivity].
    cbn. rewrite E3. reflexivity.
  - intros v. blind.
  - intros m. blind. f_equal. unfold sum_slip. rewrite E1. apply rsum_ext. intros p Hp. rewrite Es. reflexivity.
  - intros n m. blind. f_equal. unfold sum_slip. rewrite E1. apply rsum_ext. intros p Hp. rewrite Es. reflexivity.
Qed.
Lemma local_rules : (forall g0 n res tau st st', (forall k, (k < r_n (pl_rule g0 n res))%nat -> st k = st' k) -> r_slip (pl_rule g0 n res) tau st = r_slip (pl_rule g0 n res) tau st') /\
  (forall g0 n b i f tau st st', (forall k, (k < r_n (kin_rule g0 n b i f))%nat -> st k = st' k) -> r_slip (kin_rule g0 n b i f) tau st = r_slip (kin_rule g0 n b i f) tau st').
Proof.
  split.
  - intros g0 n res tau st st' H. cbn in *. unfold pl_slip. rewrite (H 0%nat) by lia. reflexivity.
  - intros g0 n b i f tau st st' H. cbn in *. unfold kin_slip, kin_over. rewrite (H 0%nat), (H 1%nat), (H 2%nat) by lia. reflexivity.
Qed.

(** Power law inelasticity does not see the frame. *)
Lemma id6_turn q k : unitq q -> (k < 6)%nat -> apply_sym q (fun i => if Nat.ltb i 3 then 1 else 0) k = (if Nat.ltb k 3 then 1 else 0).
Proof.
  intros H Hk. destruct q as [a b c d]. unfold unitq in H. cbn [q0 q1 q2 q3] in H. assert (A : a * a = 1 - b * b - c * c - d * d) by lra. clear H.
  rewrite sym_matrix by exact Hk. cases6 k Hk; cbv [mv flat rsum mandel_rot to_matrix Nat.add Nat.mul Nat.ltb Nat.leb q0 q1 q2 q3]; try (ring [A]); r2ring.
Qed.

Lemma dev_turn q s k : unitq q -> (k < 6)%nat -> sym_dev (apply_sym q s) k = apply_sym q (sym_dev s) k.
Proof.
  intros H Hk.
  assert (E : forall x i, (i < 6)%nat -> sym_dev x i = vsub x (fun j => sym_trace x / 3 * (if Nat.ltb j 3 then 1 else 0)) i).
  { intros x i Hi. unfold vsub, sym_dev. cases6 i Hi; cbn; ring. }
  rewrite E by exact Hk. rewrite (apply_sym_ext q (sym_dev s) _ k (E s) Hk). rewrite apply_sym_minus by exact Hk. unfold vsub. f_equal.
  assert (ET : sym_trace (apply_sym q s) = sym_trace s) by (apply (apply_sym_trace q s H)). rewrite ET.
  rewrite (apply_sym_ext q (fun j => sym_trace s / 3 * (if Nat.ltb j 3 then 1 else 0)) (fun j => rsum 1 (fun p => sym_trace s / 3 * (if Nat.ltb j 3 then 1 else 0))) k) by (try exact Hk; intros j Hj; cbn; ring).
  rewrite (apply_sym_sum q 1 (fun _ => sym_trace s / 3) (fun _ j => if Nat.ltb j 3 then 1 else 0) k Hk). cbn [rsum]. rewrite id6_turn by assumption. ring.
Qed.
Lemma seq_turn q s : unitq q -> pi_seq (apply_sym q s) = pi_seq s.
Proof.
  intros H. unfold pi_seq. f_equal. rewrite !sym_norm_norm2. unfold norm2. f_equal. rewrite <- (apply_sym_inner q (sym_dev s) (sym_dev s) H).
  unfold dot. apply rsum_ext. intros i Hi. rewrite !dev_turn by assumption. reflexivity.
Qed.
Lemma power_turned q A n : unitq q -> turned_model q (power_inelasticity A n) (power_inelasticity A n).
Proof.
  intros H. split; [reflexivity|]. intros s h. split; [|split].
  - intros k Hk. cbn. unfold pi_dp. rewrite seq_turn by exact H. destruct (Rlt_dec (pi_seq s) eps).
    + unfold vzero. rewrite sym_matrix by exact Hk. unfold mv. rewrite (rsum_ext 6 _ (fun _ => 0)) by (intros; ring). rewrite rsum_0. reflexivity.
    + rewrite dev_turn by assumption. 
      rewrite (apply_sym_ext q (fun k0 => A * cpow (pi_seq s) (n - 1) * sym_dev s k0) (fun j => rsum 1 (fun p => A * cpow (pi_seq s) (n - 1) * sym_dev s j)) k) by (try exact Hk; intros j Hj; cbn; ring).
      rewrite (apply_sym_sum q 1 (fun _ => A * cpow (pi_seq s) (n - 1)) (fun _ => sym_dev s) k Hk). cbn [rsum]. ring.
  - intros k Hk. cbn. unfold vzero2. symmetry. apply apply_skew_0.
  - intros k Hk. cbn in Hk. lia.
Qed.
Lemma none_turned q : turned_model q no_inelasticity no_inelasticity.
Proof.
  split; [reflexivity|]. intros s h. split; [|split].
  - intros k Hk. cbn. unfold vzero2. rewrite sym_matrix by exact Hk. unfold mv. rewrite (rsum_ext 6 _ (fun _ => 0)) by (intros; ring). rewrite rsum_0. reflexivity.
  - intros k Hk. cbn. unfold vzero2. symmetry. apply apply_skew_0.
  - intros k Hk. cbn in Hk. lia.
Qed.

(** *** No change of volume *)
Lemma trace_sum n (c : nat -> R) (V : nat -> vec) : sym_trace (fun k => rsum n (fun p => c p * V p k)) = rsum n (fun p => c p * sym_trace (V p)).
Proof. unfold sym_trace. rewrite <- !rsum_plus. apply rsum_ext. intros; ring. Qed.
Lemma asaro_isochoric L r s h : (forall p, (p < l_n L)%nat -> sym_trace (l_M L p) = 0) -> sym_trace (i_dp (asaro L r) s h) = 0.
Proof.
  intros H. cbn [asaro i_dp]. rewrite trace_sum. rewrite (rsum_ext (l_n L) _ (fun _ => 0)); [apply rsum_0|]. intros p Hp. rewrite (H p Hp). ring.
Qed.
Lemma rotM_trace Q s : unitq Q -> sym_trace (rotM Q s) = ndot (s_dir s) (s_plane s).
Proof.
  intros H. unfold rotM. change (sym_trace (apply_sym Q (mk_symmetric (outer3 (s_dir s) (s_plane s))))) with (I1 (apply_sym Q (mk_symmetric (outer3 (s_dir s) (s_plane s))))).
  rewrite apply_sym_trace by exact H. unfold I1, mk_symmetric, sym, tr_2, outer3, ndot. cbn. field.
Qed.
Lemma crystal_isochoric L Q r s h : unitq Q -> (forall p, (p < l_n (view L Q))%nat -> ndot (s_dir (sys_at L p)) (s_plane (sys_at L p)) = 0) ->
  sym_trace (i_dp (asaro (view L Q) r) s h) = 0.
Proof. intros H HO. apply asaro_isochoric. intros p Hp. cbn [view l_M]. rewrite rotM_trace by exact H. apply HO. exact Hp. Qed.
Lemma power_isochoric A n s h : sym_trace (i_dp (power_inelasticity A n) s h) = 0.
Proof. cbn. unfold pi_dp. destruct (Rlt_dec (pi_seq s) eps); unfold sym_trace, vzero, sym_dev; [ring|]. cbn. unfold sym_trace. field. Qed.
Lemma combined_isochoric m ms s h : (forall k, (k < m)%nat -> sym_trace (i_dp (ms k) s (bsub (cb_sizes ms) h k)) = 0) -> sym_trace (i_dp (combined m ms) s h) = 0.
Proof.
  intros H. cbn [combined i_dp]. unfold sym_trace at 1. rewrite <- !rsum_plus. rewrite (rsum_ext m _ (fun _ => 0)); [apply rsum_0|]. intros k Hk. exact (H k Hk).
Qed.

(** *** Inelastic work *)
Lemma work_sum L r s h : dot 6 s (i_dp (asaro L r) s h) = rsum (l_n L) (fun p => rs_tau L s p * rs_slip L r s h p).
Proof.
  cbn [asaro i_dp]. unfold dot. rewrite (rsum_ext 6 _ (fun k => rsum (l_n L) (fun p => rs_slip L r s h p * (l_M L p k * s k)))).
  - rewrite rsum_swap. apply rsum_ext. intros p Hp. rewrite rsum_scal. unfold rs_tau, sym_contract. ring.
  - intros k Hk. rewrite <- rsum_scal. apply rsum_ext. intros; ring.
Qed.
Lemma power_law_work L g0 n res s h : 0 <= g0 -> (forall p, (p < l_n L)%nat -> 0 < rs_str L (pl_rule g0 n res) h p 0%nat) ->
  0 <= dot 6 s (i_dp (asaro L (pl_rule g0 n res)) s h).
Proof.
  intros Hg H. rewrite work_sum. apply rsum_nonneg. intros p Hp. unfold rs_slip. destruct (rs_gate L s p); [lra|]. 
  apply (pl_direction g0 n _ _ Hg (H p Hp)).
Qed.
Lemma power_work A n s h : 0 <= A -> 0 <= dot 6 s (i_dp (power_inelasticity A n) s h).
Proof.
  intros HA. cbn [power_inelasticity i_dp]. unfold pi_dp. destruct (Rlt_dec (pi_seq s) eps) as [H|H].
  - unfold dot, vzero. rewrite (rsum_ext 6 _ (fun _ => 0)) by (intros; ring). rewrite rsum_0. lra.
  - assert (E : dot 6 s (fun k => A * cpow (pi_seq s) (n - 1) * sym_dev s k) = A * cpow (pi_seq s) (n - 1) * dot 6 (sym_dev s) (sym_dev s)).
    { unfold dot, sym_dev, sym_trace. cbn. field. }
    rewrite E. assert (0 < pi_seq s) by (assert (0 < eps) by (unfold eps; apply Rinv_0_lt_compat, pow_lt; lra); lra). apply Rmult_le_pos; [apply Rmult_le_pos; [exact HA|apply Rlt_le, cpow_gt0; exact H0]|].
    unfold dot. apply rsum_nonneg. intros i Hi. nra.
Qed.
Lemma combined_work m ms s h : (forall k, (k < m)%nat -> 0 <= dot 6 s (i_dp (ms k) s (bsub (cb_sizes ms) h k))) -> 0 <= dot 6 s (i_dp (combined m ms) s h).
Proof.
  intros H. cbn [combined i_dp]. unfold dot. rewrite (rsum_ext 6 _ (fun i => rsum m (fun k => s i * i_dp (ms k) s (bsub (cb_sizes ms) h k) i))) by (intros; rewrite <- rsum_scal; reflexivity).
  rewrite rsum_swap. apply rsum_nonneg. exact H.
Qed.

(** *** What goes wrong *)
(** The documented spin differs. *)
Definition cubicS : vec := fun p => if Nat.eqb (p / 6) (p mod 6) then (if Nat.ltb (p / 6) 3 then 1 else 2) else 0.
Definition spin_stress : vec := fun k => match k with 0%nat => 3 | 5%nat => r2 | _ => 0 end.

Lemma cubicS_acts s k : (k < 6)%nat -> mv 6 (flat 6 cubicS) s k = (if Nat.ltb k 3 then 1 else 2) * s k.
Proof. intros Hk. unfold mv, flat, cubicS. cases6 k Hk; cbn; ring. Qed.
Lemma eps_small : 0 < eps < 1.
Proof. split; [unfold eps; apply Rinv_0_lt_compat, pow_lt; lra|]. unfold eps. rewrite <- Rinv_1. apply Rinv_lt_contravar; [rewrite Rmult_1_l; apply pow_lt; lra|]. apply Rlt_pow_R1; [lra|lia]. Qed.
Lemma spin_seq : eps < pi_seq spin_stress.
Proof.
  unfold pi_seq. rewrite sym_norm_norm2. unfold norm2. rewrite <- sqrt_mult_alt by lra. pose proof eps_small.
  apply Rlt_trans with 1; [lra|]. rewrite <- sqrt_1 at 1. apply sqrt_lt_1_alt. split; [lra|].
  unfold dot, sym_dev, sym_trace, spin_stress. cbn. assert (0 <= r2 * r2) by apply Rle_0_sqr. nra.
Qed.
Lemma documented_spin_differs : exists s w, 
  documented_spin w (i_wp (power_inelasticity 1 1) s vzero) (mv 6 (flat 6 cubicS) s) (i_dp (power_inelasticity 1 1) s vzero) 0%nat 1%nat
  <> mat3 (uskew (sk_spin cubicS (power_inelasticity 1 1) s w vzero)) 0%nat 1%nat.
Proof.
  exists spin_stress, vzero. unfold documented_spin.
  assert (EW : mat3 (uskew (sk_spin cubicS (power_inelasticity 1 1) spin_stress vzero vzero)) 0%nat 1%nat = 0).
  { unfold mat3, uskew. cbn [Nat.mul Nat.add]. rewrite spin_value by lia. cbn. unfold vzero, vzero2. ring. }
  rewrite EW. 
  assert (ED : forall k, (k < 6)%nat -> i_dp (power_inelasticity 1 1) spin_stress vzero k = sym_dev spin_stress k).
  { intros k Hk. cbn [power_inelasticity i_dp]. unfold pi_dp. pose proof spin_seq. destruct (Rlt_dec (pi_seq spin_stress) eps); [lra|].
    replace (1 - 1) with 0 by ring. rewrite cpow_pos by (pose proof eps_small; lra). rewrite Rpower_O by (pose proof eps_small; lra). ring. }
  set (dp := i_dp (power_inelasticity 1 1) spin_stress vzero) in *. clearbody dp.
  assert (EE := cubicS_acts spin_stress). set (e := mv 6 (flat 6 cubicS) spin_stress) in *. clearbody e.
  unfold commutator, mm, mat3, usym, uskew, vzero. cbn [rsum Nat.mul Nat.add]. rewrite !ED, !EE by lia. cbn [i_wp power_inelasticity]. unfold vzero2, sym_dev, sym_trace, spin_stress. cbn.
  pose proof r2_sqr as Q. pose proof r2_pos as P. pose proof r2_inv as V. intros X. unfold Rdiv in X. rewrite ?V in X. nra.
Qed.

(** Below the threshold the power law reports a derivative although the rate is constant. *)
Definition shear1 (u : R) : vec := fun k => if Nat.eqb k 3 then u else 0.
Lemma path_shear1 t : path 6 shear1 t (shear1 1).
Proof. intros k Hk. unfold shear1. destruct (Nat.eqb k 3); [apply D_id|apply (D_const 0)]. Qed.
Lemma seq_shear u : pi_seq (shear1 u) = sqrt (3 / 2) * Rabs u.
Proof.
  unfold pi_seq. rewrite sym_norm_norm2. unfold norm2, dot, sym_dev, sym_trace, shear1. cbn. f_equal. rewrite <- sqrt_Rsqr_abs. f_equal. unfold Rsqr. field.
Qed.
Lemma power_small_derivative A n : 0 < A -> ~ inelastic_exact (power_inelasticity A n) (fun _ _ => True).
Proof.
  intros HA (H & _ & _). pose proof eps_small as He.
  specialize (H shear1 (fun _ => vzero) 0 (shear1 1) vzero (path_shear1 0)). 
  specialize (H ltac:(intros k Hk; cbn in Hk; lia) I 3%nat ltac:(lia)). cbn [power_inelasticity i_dp i_dp_s i_dp_h i_n] in H.
  assert (H0 : is_derive (fun u => pi_dp A n (shear1 u) 3%nat) 0 0).
  { apply (D_loc (fun _ => 0) _ 0 0); [|apply (D_const 0)].
    assert (Hs : 0 < eps / 2) by lra. exists (mkposreal _ Hs). intros u Hu. cbn in Hu. unfold ball in Hu. cbn in Hu. unfold AbsRing_ball, abs, minus, plus, opp in Hu. cbn in Hu.
    rewrite Ropp_0, Rplus_0_r in Hu. unfold pi_dp. rewrite seq_shear. destruct (Rlt_dec (sqrt (3 / 2) * Rabs u) eps) as [K|K]; [reflexivity|].
    exfalso. apply K. assert (Q : sqrt (3 / 2) < 2). { apply Rlt_le_trans with (sqrt 4); [apply sqrt_lt_1_alt; lra|]. replace 4 with (Rsqr 2) by (unfold Rsqr; lra). rewrite sqrt_Rsqr; lra. }
    apply Rle_lt_trans with (2 * Rabs u); [apply Rmult_le_compat_r; [apply Rabs_pos|lra]|lra]. }
  assert (E := D_unique _ _ _ _ H H0). unfold vadd in E.
  assert (Z : mv 0 (mzero2 (shear1 0) vzero) vzero 3%nat = 0) by reflexivity. rewrite Z, Rplus_0_r in E.
  assert (E2 : mv 6 (pi_dp_s A n (shear1 0)) (shear1 1) 3%nat = pi_dp_s A n (shear1 0) 3%nat 3%nat) by (unfold mv, shear1; cbn; ring).
  rewrite E2 in E. unfold pi_dp_s in E. rewrite seq_shear in E. rewrite Rabs_R0, Rmult_0_r in E. destruct (Rlt_dec 0 eps) as [K|K]; [|lra].
  assert (P : 0 < cpow eps n) by (apply cpow_gt0; lra).
  unfold mm, id_dev, delta, sym_dev, sym_trace, shear1 in E. cbn in E. 
  assert (F : A * cpow eps n / eps = 0) by (rewrite <- E; field; lra).
  assert (0 < A * cpow eps n / eps) by (apply Rdiv_lt_0_compat; [apply Rmult_lt_0_compat; assumption|lra]). lra.
Qed.

(** Two models with variables: the derivative by the first one's variables is lost. *)
Lemma combined_two_reported ms s h i q : i_full (ms 0%nat) = true -> i_full (ms 1%nat) = true -> (q < i_n (ms 0%nat))%nat ->
  i_dp_h (combined 2 ms) s h i q = 0 /\ i_wp_h (combined 2 ms) s h i q = 0.
Proof.
  intros H0 H1 Hq. cbn [combined i_dp_h i_wp_h]. unfold cb_union.
  assert (E : cb_fulls 2 ms = [0%nat; 1%nat]) by (unfold cb_fulls; cbn; rewrite H0, H1; reflexivity). rewrite E. cbn [or_zero]. unfold cb_col.
  pose proof (bblk_at (cb_sizes ms) 2 0 q ltac:(lia) Hq) as B. cbn [boff] in B. rewrite Nat.add_0_l in B. rewrite B. split; reflexivity.
Qed.
Lemma mv_delta n (A : mat) q i : (q < n)%nat -> mv n A (fun j => delta q j) i = A i q.
Proof.
  intros Hq. unfold mv, delta. rewrite (rsum_ext n _ (fun j => (if Nat.eqb j q then 1 else 0) * A i j)). 
  - apply (rsum_pick n q (fun j => A i j)). exact Hq.
  - intros j Hj. rewrite (Nat.eqb_sym q j). destruct (Nat.eqb j q); ring.
Qed.
Lemma line_at_0 (h w : vec) : (fun i => h i + 0 * w i) = h.
Proof. apply functional_extensionality. intros i. ring. Qed.
Lemma combined_two_wrong ms (P0 P1 P : vec -> vec -> Prop) (s h : vec) i q : i_full (ms 0%nat) = true -> i_full (ms 1%nat) = true -> (q < i_n (ms 0%nat))%nat -> (i < 6)%nat ->
  inelastic_exact (ms 0%nat) P0 -> inelastic_exact (ms 1%nat) P1 -> P0 s (bsub (cb_sizes ms) h 0) -> P1 s (bsub (cb_sizes ms) h 1) -> P s h ->
  i_dp_h (ms 0%nat) s (bsub (cb_sizes ms) h 0) i q <> 0 -> ~ inelastic_exact (combined 2 ms) P.
Proof.
  intros H0 H1 Hq Hi X0 X1 K0 K1 KP Hne HC. apply Hne.
  destruct X0 as [X0 _]. destruct X1 as [X1 _]. destruct HC as [HC _].
  assert (Ps : path 6 (fun _ => s) 0 (fun _ => 0)) by (intros j Hj; apply (D_const (s j))).
  pose proof (path_line (boff (cb_sizes ms) 2) h (fun j => delta q j)) as Ph.
  assert (Hz : forall n (A : mat) x, mv n A (fun _ => 0) x = 0) by (intros n A x; unfold mv; rewrite (rsum_ext n _ (fun _ => 0)) by (intros; ring); apply rsum_0).
  pose proof (path_sub (cb_sizes ms) 2 _ 0 _ 0%nat ltac:(lia) Ph) as Ph0. pose proof (path_sub (cb_sizes ms) 2 _ 0 _ 1%nat ltac:(lia) Ph) as Ph1.
  specialize (HC (fun _ => s) _ 0 _ _ Ps Ph). specialize (X0 (fun _ => s) _ 0 _ _ Ps Ph0). specialize (X1 (fun _ => s) _ 0 _ _ Ps Ph1). cbv beta in HC, X0, X1.
  rewrite line_at_0 in HC, X0, X1. specialize (HC KP i Hi). specialize (X0 K0 i Hi). specialize (X1 K1 i Hi). unfold vadd in HC, X0, X1. rewrite Hz in HC, X0, X1. rewrite Rplus_0_l in HC, X0, X1.
  assert (B : boff (cb_sizes ms) 2 = (i_n (ms 0%nat) + i_n (ms 1%nat))%nat) by reflexivity.
  rewrite (mv_delta (i_n (combined 2 ms)) _ q i) in HC by (cbn [combined i_n]; rewrite B; lia). 
  destruct (combined_two_reported ms s h i q H0 H1 Hq) as [R _]. rewrite R in HC.
  assert (E1 : mv (i_n (ms 1%nat)) (i_dp_h (ms 1%nat) s (bsub (cb_sizes ms) h 1)) (bsub (cb_sizes ms) (fun j => delta q j) 1) i = 0).
  { rewrite <- (Hz (i_n (ms 1%nat)) (i_dp_h (ms 1%nat) s (bsub (cb_sizes ms) h 1)) i). apply rsum_ext. intros j Hj. unfold bsub, delta. cbn [boff].
    destruct (Nat.eqb_spec q (0 + cb_sizes ms 0 + j)) as [Eq|Eq]; [unfold cb_sizes in Eq; lia|ring]. }
  assert (E0 : mv (i_n (ms 0%nat)) (i_dp_h (ms 0%nat) s (bsub (cb_sizes ms) h 0)) (bsub (cb_sizes ms) (fun j => delta q j) 0) i = i_dp_h (ms 0%nat) s (bsub (cb_sizes ms) h 0) i q).
  { rewrite <- (mv_delta (i_n (ms 0%nat)) _ q i Hq). reflexivity. }
  rewrite E1 in X1. rewrite E0 in X0.
  assert (S : is_derive (fun u => i_dp (combined 2 ms) s (fun j => h j + u * delta q j) i) 0 (i_dp_h (ms 0%nat) s (bsub (cb_sizes ms) h 0) i q + 0)).
  { eapply D_ext; [|exact (D_plus _ _ 0 _ _ X0 X1)]. intros u. cbn [combined i_dp rsum]. ring. }
  pose proof (D_unique _ _ _ _ HC S). lra.
Qed.
Lemma combined_three m ms J s h : (3 <= length (cb_fulls m ms))%nat -> cb_union m ms J s h = None.
Proof. intros H. unfold cb_union. destruct (cb_fulls m ms) as [|a [|b [|c l]]]; cbn in H; try lia. reflexivity. Qed.
Lemma fold_max_bound (f : nat -> R) l : forall a, a <= fold_left (fun acc k => Rmax acc (f k)) l a /\ (forall k, In k l -> f k <= fold_left (fun acc k => Rmax acc (f k)) l a) /\
  (fold_left (fun acc k => Rmax acc (f k)) l a = a \/ exists k, In k l /\ fold_left (fun acc k => Rmax acc (f k)) l a = f k).
Proof.
  induction l as [|x l IH]; intros a; cbn [fold_left In]; [split; [lra|split; [intros k []|left; reflexivity]]|].
  destruct (IH (Rmax a (f x))) as (A1 & A2 & A3). split; [apply Rle_trans with (2 := A1); apply Rmax_l|]. split.
  - intros k [<-|Hk]; [apply Rle_trans with (2 := A1); apply Rmax_r|exact (A2 k Hk)].
  - destruct A3 as [E|(k & Hk & E)]; [|right; exists k; split; [right; exact Hk|exact E]].
    destruct (Rle_dec a (f x)) as [K|K]; [right; exists x; split; [left; reflexivity|]|left]; rewrite E; [apply Rmax_right|apply Rmax_left]; lra.
Qed.
Lemma combined_strength m ms h : 0 <= i_str (combined m ms) h /\
  (forall k, (k < m)%nat -> i_str (ms k) (bsub (cb_sizes ms) h k) <= i_str (combined m ms) h) /\
  (i_str (combined m ms) h = 0 \/ exists k, (k < m)%nat /\ i_str (combined m ms) h = i_str (ms k) (bsub (cb_sizes ms) h k)).
Proof.
  cbn [combined i_str]. destruct (fold_max_bound (fun k => i_str (ms k) (bsub (cb_sizes ms) h k)) (seq 0 m) 0) as (A & B & C).
  split; [exact A|]. split; [intros k Hk; apply B; apply in_seq; lia|]. destruct C as [C|(k & Hk & C)]; [left; exact C|right; exists k; split; [apply in_seq in Hk; lia|exact C]].
Qed.

(** The documented power law. *)
Lemma power_value A n s h : eps <= pi_seq s -> forall k, i_dp (power_inelasticity A n) s h k = A * Rpower (pi_seq s) (n - 1) * sym_dev s k.
Proof.
  intros H k. cbn [power_inelasticity i_dp]. unfold pi_dp. destruct (Rlt_dec (pi_seq s) eps); [lra|]. rewrite cpow_pos by (pose proof eps_small; lra). reflexivity.
Qed.
Lemma seq_mises s : pi_seq s * pi_seq s = 3 / 2 * dot 6 (sym_dev s) (sym_dev s) /\ 0 <= pi_seq s.
Proof.
  unfold pi_seq. rewrite sym_norm_norm2. unfold norm2. assert (D : 0 <= dot 6 (sym_dev s) (sym_dev s)) by (unfold dot; apply rsum_nonneg; intros; nra).
  split; [|apply Rmult_le_pos; apply sqrt_pos]. replace (sqrt (3 / 2) * sqrt (dot 6 (sym_dev s) (sym_dev s)) * (sqrt (3 / 2) * sqrt (dot 6 (sym_dev s) (sym_dev s)))) with
   ((sqrt (3 / 2) * sqrt (3 / 2)) * (sqrt (dot 6 (sym_dev s) (sym_dev s)) * sqrt (dot 6 (sym_dev s) (sym_dev s)))) by ring. rewrite !sqrt_sqrt by lra. reflexivity.
Qed.
(** The strength query of the power law is the stress at which the rate A s^n is one. *)
Lemma power_strength A n h : 0 < A -> n <> 0 -> A * cpow (i_str (power_inelasticity A n) h) n = 1.
Proof.
  intros HA Hn. cbn. rewrite (cpow_pos A) by exact HA. rewrite cpow_pos by apply exp_pos. rewrite Rpower_mult. replace (-1 / n * n) with (- (1)) by (field; exact Hn).
  rewrite Rpower_Ropp, Rpower_1 by exact HA. field. lra.
Qed.

(** *** Elastic limits *)
Lemma elastic_rate C S s0 w h0 s d h : forall i, (i < 6)%nat ->
  sk_rate (sk_decouple C S no_inelasticity s0 w h0) no_inelasticity s d h i = mv 6 (flat 6 C) (vsub d (net (mv 6 (flat 6 S) s) w)) i.
Proof.
  intros i Hi. unfold sk_rate. cbn [sk_decouple f_C]. apply veq_mv. intros k Hk. unfold vsub. cbn [no_inelasticity i_dp]. unfold vzero2.
  assert (E : net (sk_e (sk_decouple C S no_inelasticity s0 w h0) s) (sk_O (sk_decouple C S no_inelasticity s0 w h0) no_inelasticity s h) k = net (mv 6 (flat 6 S) s) w k).
  { apply net_ext; [reflexivity| |exact Hk]. intros a Ha. unfold sk_O, vadd. cbn [sk_decouple f_spin]. rewrite spin_value by exact Ha. cbn. unfold vzero2. ring. }
  rewrite E. ring.
Qed.
Lemma unstressed_rate f m d h : (forall k, (k < 6)%nat -> i_dp m vzero h k = 0) -> forall i, (i < 6)%nat -> sk_rate f m vzero d h i = mv 6 (flat 6 (f_C f)) d i.
Proof.
  intros H i Hi. unfold sk_rate. apply veq_mv. intros k Hk. unfold vsub. rewrite (H k Hk).
  rewrite (net_ext (sk_e f vzero) (fun _ => 0) (sk_O f m vzero h) (sk_O f m vzero h) k); [rewrite net_0_l by exact Hk; ring| |reflexivity|exact Hk].
  intros a Ha. unfold sk_e, mv, vzero. rewrite (rsum_ext 6 _ (fun _ => 0)) by (intros; ring). apply rsum_0.
Qed.

Lemma two_case : let ms := fun _ : nat => asaro lat2 (pl_rule 1 3 (plastic_slip (voce_slip 10 2 5 0))) in
  i_full (ms 0%nat) = true /\ i_full (ms 1%nat) = true /\ i_n (ms 0%nat) = 1%nat /\
  i_dp_h (ms 0%nat) (fun c => if Nat.eqb c 3 then 7 else 0) (fun _ => 1) 3%nat 0%nat <> 0.
Proof.
  cbv zeta. split; [reflexivity|]. split; [reflexivity|]. split; [reflexivity|].
  set (s := fun c => if Nat.eqb c 3 then 7 else 0).
  assert (E0 : rs_tau lat2 s 0 = 7) by (unfold rs_tau, sym_contract, s; cbn; ring).
  assert (E1 : rs_tau lat2 s 1 = 0) by (unfold rs_tau, sym_contract, s; cbn; ring).
  set (r := pl_rule 1 3 (plastic_slip (voce_slip 10 2 5 0))).
  change (0 + rs_dslip_h lat2 r s (fun _ => 1) 0%nat 0%nat * 1 + rs_dslip_h lat2 r s (fun _ => 1) 1%nat 0%nat * 0 <> 0).
  assert (E : rs_dslip_h lat2 r s (fun _ => 1) 0%nat 0%nat = pl_dstr 1 3 (rs_tau lat2 s 0) (rs_str lat2 r (fun _ => 1) 0) 0%nat * 1) by reflexivity.
  assert (S0 : rs_str lat2 r (fun _ => 1) 0 0%nat = 1 + 5 + 0) by reflexivity.
  rewrite E, E0. unfold pl_dstr. rewrite S0. intros X.
  assert (P1 : 0 < cpow (Rabs 7) (3 - 1)) by (apply cpow_gt0; rewrite Rabs_pos_eq; lra).
  assert (P2 : 0 < cpow (1 + 5 + 0) (3 + 1)) by (apply cpow_gt0; lra).
  assert (0 < cpow (Rabs 7) (3 - 1) / cpow (1 + 5 + 0) (3 + 1)) by (apply Rdiv_lt_0_compat; assumption).
  unfold Rdiv in *. nra.
Qed.
