(** Proofs about the tensor classes. *)
From Verif Require Import Base.
From Verif Require Import Diff.
From Verif Require Import NemlMathModel.
From Verif Require Import NemlMathSpec.
From Verif Require Import NemlMathProofs.
From Verif Require Import RotModel RotSpec RotProofs RotTensor.
From Verif Require Import TensorModel TensorSpec.

Ltac ttab := cbv [symm2 skewp2 trans2 add2 sub2 inner2 trace2 act4 prod4 mk_symmetric mk_skew tr_2 mul_2 contract9
  sym_contract sym_contract_skew skew_contract sym_trace sym_dev r2_vec vec_r2 outer3 r4_dot r4_r2 ss_dot ss_sym ss_transpose douter_ss douter_ws
  ss_ws ss_sw ws_ss sw_ws ws_sw ws_sym sw_skew ws_skew sw_sym ss_skew
  add_full_sym sub_full_sym sub_sym_full add_full_skew sub_full_skew sub_skew_full full_sym sym_full full_skew skew_full sym_skew skew_sym
  mv3 ndot Nat.div Nat.modulo Nat.divmod fst snd Nat.sub]; tab;
  cbv [Nat.div Nat.modulo Nat.divmod fst snd Nat.sub Nat.add Nat.mul].

(** ** Conversions *)
Lemma usym_mk_symmetric : forall A, meq3 (t2 (usym (mk_symmetric A))) (symm2 (t2 A)).
Proof. intros A i j Hi Hj. cases3 i Hi; cases3 j Hj; ttab; r2ring. Qed.
Lemma mk_symmetric_usym : forall d, veq 6 (mk_symmetric (usym d)) d.
Proof. intros d i Hi. cases6 i Hi; ttab; r2ring. Qed.
Lemma uskew_mk_skew : forall A, meq3 (t2 (uskew (mk_skew A))) (skewp2 (t2 A)).
Proof. intros A i j Hi Hj. cases3 i Hi; cases3 j Hj; ttab; field. Qed.
Lemma mk_skew_uskew : forall w, veq 3 (mk_skew (uskew w)) w.
Proof. intros d i Hi. cases3 i Hi; ttab; field. Qed.
Lemma split_parts : forall A, meq3 (t2 A) (add2 (t2 (usym (mk_symmetric A))) (t2 (uskew (mk_skew A)))).
Proof. intros A i j Hi Hj. unfold add2. rewrite usym_mk_symmetric, uskew_mk_skew by assumption. unfold symm2, skewp2. field. Qed.
Lemma mk_symmetric_skew_zero : forall w, veq 6 (mk_symmetric (uskew w)) (fun _ => 0).
Proof. intros d i Hi. cases6 i Hi; ttab; r2ring. Qed.
Lemma mk_skew_symmetric_zero : forall d, veq 3 (mk_skew (usym d)) (fun _ => 0).
Proof. intros d i Hi. cases3 i Hi; ttab; r2ring. Qed.

(** ** Sums, products, contractions *)
Lemma mul_2_t2 : forall A B, meq3 (t2 (mul_2 A B)) (mul2 (t2 A) (t2 B)).
Proof. intros A B i j Hi Hj. cases3 i Hi; cases3 j Hj; ttab; ring. Qed.
Lemma mixed_sums : forall A d w, meq3 (t2 (add_full_sym A d)) (add2 (t2 A) (t2 (usym d))) /\
  meq3 (t2 (sub_full_sym A d)) (sub2 (t2 A) (t2 (usym d))) /\ meq3 (t2 (sub_sym_full d A)) (sub2 (t2 (usym d)) (t2 A)) /\
  meq3 (t2 (add_full_skew A w)) (add2 (t2 A) (t2 (uskew w))) /\
  meq3 (t2 (sub_full_skew A w)) (sub2 (t2 A) (t2 (uskew w))) /\ meq3 (t2 (sub_skew_full w A)) (sub2 (t2 (uskew w)) (t2 A)).
Proof. intros A d w. repeat split; intros i j Hi Hj; unfold add2, sub2, t2, add_full_sym, sub_full_sym, sub_sym_full, add_full_skew, sub_full_skew, sub_skew_full; ring. Qed.
Lemma mixed_products : forall A d w, meq3 (t2 (full_sym A d)) (mul2 (t2 A) (t2 (usym d))) /\
  meq3 (t2 (sym_full d A)) (mul2 (t2 (usym d)) (t2 A)) /\ meq3 (t2 (full_skew A w)) (mul2 (t2 A) (t2 (uskew w))) /\
  meq3 (t2 (skew_full w A)) (mul2 (t2 (uskew w)) (t2 A)) /\ meq3 (t2 (sym_skew d w)) (mul2 (t2 (usym d)) (t2 (uskew w))) /\
  meq3 (t2 (skew_sym w d)) (mul2 (t2 (uskew w)) (t2 (usym d))).
Proof. intros. repeat split; apply mul_2_t2. Qed.
Lemma vector_products : forall A v i, (i < 3)%nat ->
  r2_vec A v i = mv3 (t2 A) v i /\ vec_r2 v A i = rsum 3 (fun k => v k * t2 A k i).
Proof. intros A v i Hi. cases3 i Hi; ttab; split; ring. Qed.
Lemma outer_entry : forall a b, meq3 (t2 (outer3 a b)) (fun i j => a i * b j).
Proof. intros a b i j Hi Hj. cases3 i Hi; cases3 j Hj; ttab; ring. Qed.
Lemma normalize3_sound : forall v w, normalize3 v = Some w -> unit_vec w /\ exists c, 0 < c /\ forall i, v i = c * w i.
Proof.
  intros v w H. unfold normalize3 in H. destruct (Req_EM_T (norm3 v) 0) as [|N]; [discriminate|]. injection H as <-.
  assert (P : 0 <= norm3 v) by (unfold norm3; apply sqrt_pos).
  assert (S : norm3 v * norm3 v = v 0%nat * v 0%nat + v 1%nat * v 1%nat + v 2%nat * v 2%nat).
  { unfold norm3, dot3. rewrite sqrt_sqrt; [cbn; ring|]. pose proof (Rle_0_sqr (v 0%nat)); pose proof (Rle_0_sqr (v 1%nat)); pose proof (Rle_0_sqr (v 2%nat)).
    unfold Rsqr in *. cbn. lra. }
  split.
  - unfold unit_vec, ndot. cbn. transitivity ((v 0%nat * v 0%nat + v 1%nat * v 1%nat + v 2%nat * v 2%nat) / (norm3 v * norm3 v)); [field; exact N|].
    rewrite <- S. field. exact N.
  - exists (norm3 v). split; [lra|]. intros i. field. exact N.
Qed.
Lemma contract_inner : forall A B, contract9 A B = inner2 (t2 A) (t2 B).
Proof. intros. ttab. ring. Qed.
Lemma sym_contract_inner : forall d e, sym_contract d e = inner2 (t2 (usym d)) (t2 (usym e)).
Proof. intros. ttab. r2ring. Qed.
Lemma sym_contract_skew_zero : forall d w, sym_contract_skew d w = inner2 (t2 (usym d)) (t2 (uskew w)) /\ sym_contract_skew d w = 0.
Proof. intros. split; ttab; r2ring. Qed.
Lemma skew_contract_inner : forall w x, skew_contract w x = inner2 (t2 (uskew w)) (t2 (uskew x)).
Proof. intros. ttab. ring. Qed.
Lemma sym_norm_value : forall d, 0 <= sym_norm d /\ sym_norm d * sym_norm d = inner2 (t2 (usym d)) (t2 (usym d)) /\ sym_norm d * sym_norm d = sym_contract d d.
Proof.
  intros d. unfold sym_norm, norm9. split; [apply sqrt_pos|].
  assert (P : 0 <= contract9 (usym d) (usym d)) by (unfold contract9; apply rsum_nonneg; intros k _; apply Rle_0_sqr).
  rewrite sqrt_sqrt by exact P. split; [apply contract_inner|]. rewrite contract_inner. symmetry. apply sym_contract_inner.
Qed.
Lemma sym_trace_full : forall d, sym_trace d = trace2 (t2 (usym d)).
Proof. intros. ttab. ring. Qed.
Lemma sym_dev_full : forall d, meq3 (t2 (usym (sym_dev d))) (sub2 (t2 (usym d)) (fun i j => trace2 (t2 (usym d)) / 3 * delta i j)) /\ sym_trace (sym_dev d) = 0.
Proof. intros d. split; [|ttab; field]. intros i j Hi Hj. cases3 i Hi; cases3 j Hj; ttab; r2ring. Qed.

(** ** Symmetric . Symmetric and Skew . Skew keep only one part of the product *)
Lemma sym_dot_part : forall d e, meq3 (t2 (usym (sym_dot d e))) (symm2 (mul2 (t2 (usym d)) (t2 (usym e)))).
Proof.
  intros d e i j Hi Hj. unfold sym_dot. rewrite usym_mk_symmetric by assumption. unfold symm2. rewrite !mul_2_t2 by assumption. reflexivity.
Qed.
Lemma sym_dot_commuting : forall d e, meq3 (mul2 (t2 (usym d)) (t2 (usym e))) (mul2 (t2 (usym e)) (t2 (usym d))) ->
  meq3 (t2 (usym (sym_dot d e))) (mul2 (t2 (usym d)) (t2 (usym e))).
Proof.
  intros d e H i j Hi Hj. rewrite sym_dot_part by assumption. unfold symm2.
  replace (mul2 (t2 (usym d)) (t2 (usym e)) j i) with (mul2 (t2 (usym e)) (t2 (usym d)) i j); [rewrite <- H by assumption; field|].
  cases3 i Hi; cases3 j Hj; ttab; ring.
Qed.
Lemma sym_dot_wrong : exists d e, t2 (usym (sym_dot d e)) 0 1 <> mul2 (t2 (usym d)) (t2 (usym e)) 0%nat 1%nat.
Proof.
  exists (fun k => match k with 0%nat => 1 | _ => 0 end), (fun k => match k with 5%nat => r2 | _ => 0 end).
  rewrite sym_dot_part by lia. pose proof r2_pos. ttab. rewrite !Rmult_0_l, !Rmult_0_r, !Rplus_0_l, !Rplus_0_r.
  replace (r2 / r2) with 1 by (field; lra). unfold Rdiv. rewrite ?Rmult_0_l. lra.
Qed.
Lemma skew_dot_part : forall w x, meq3 (t2 (uskew (skew_dot w x))) (skewp2 (mul2 (t2 (uskew w)) (t2 (uskew x)))).
Proof.
  intros d e i j Hi Hj. unfold skew_dot. rewrite uskew_mk_skew by assumption. unfold skewp2. rewrite !mul_2_t2 by assumption. reflexivity.
Qed.
(** the square of a skew tensor is symmetric, so the class returns zero for it *)
Lemma skew_dot_square : forall w, veq 3 (skew_dot w w) (fun _ => 0).
Proof. intros w i Hi. unfold skew_dot. cases3 i Hi; ttab; field. Qed.
Lemma skew_dot_wrong : exists w, t2 (uskew (skew_dot w w)) 0 0 <> mul2 (t2 (uskew w)) (t2 (uskew w)) 0%nat 0%nat.
Proof. exists (fun k => match k with 2%nat => 1 | _ => 0 end). rewrite skew_dot_part by lia. ttab. lra. Qed.
Lemma sym_inverse_sound : forall inv9 d x,
  (forall A X, inv9 A = Some X -> meq3 (mul2 (t2 A) (t2 X)) delta /\ meq3 (mul2 (t2 X) (t2 A)) delta) ->
  sym_inverse inv9 d = Some x -> meq3 (mul2 (t2 (usym d)) (t2 (usym x))) delta.
Proof.
  intros inv9 d x H E. unfold sym_inverse in E. destruct (inv9 (usym d)) as [X|] eqn:EX; [|discriminate]. injection E as <-.
  destruct (H _ _ EX) as [R L]. set (U := t2 (usym d)) in *. set (V := t2 X) in *.
  assert (SU : forall i j, (i < 3)%nat -> (j < 3)%nat -> U i j = U j i) by (intros; unfold U; apply (usym_is_sym d); assumption).
  (* X is symmetric: X = X (U X^T) = (X U) X^T = X^T *)
  assert (SV : forall i j, (i < 3)%nat -> (j < 3)%nat -> V i j = V j i).
  { assert (RT : forall i j, (i < 3)%nat -> (j < 3)%nat -> rsum 3 (fun k => U i k * V j k) = delta i j).
    { intros i j Hi Hj. transitivity (mul2 V U j i).
      - unfold mul2. apply rsum_ext. intros k Hk. rewrite (SU i k) by lia. ring.
      - rewrite L by assumption. unfold delta. destruct (Nat.eqb_spec i j), (Nat.eqb_spec j i); congruence || reflexivity. }
    intros i j Hi Hj.
    assert (A1 : rsum 3 (fun m => V i m * rsum 3 (fun k => U m k * V j k)) = V i j).
    { transitivity (rsum 3 (fun m => V i m * delta m j)); [apply rsum_ext; intros m Hm; rewrite RT by assumption; reflexivity|].
      cases3 j Hj; cbv [rsum delta Nat.eqb]; ring. }
    assert (A2 : rsum 3 (fun m => V i m * rsum 3 (fun k => U m k * V j k)) = V j i).
    { transitivity (rsum 3 (fun k => mul2 V U i k * V j k)); [unfold mul2; cbv [rsum]; ring|].
      transitivity (rsum 3 (fun k => delta i k * V j k)); [apply rsum_ext; intros k Hk; rewrite L by assumption; reflexivity|].
      cases3 i Hi; cbv [rsum delta Nat.eqb]; ring. }
    congruence. }
  intros i j Hi Hj. transitivity (mul2 U V i j); [|apply R; assumption].
  unfold mul2. apply rsum_ext. intros k Hk. f_equal. rewrite usym_mk_symmetric by assumption. unfold symm2. fold V. rewrite (SV k j) by assumption. field.
Qed.

(** ** Fourth order tensors *)
Lemma r4_dot_index : forall A B, meq4 (t4 (r4_dot A B)) (prod4 (t4 A) (t4 B)).
Proof. intros A B i j k l Hi Hj Hk Hl. cases3 i Hi; cases3 j Hj; cases3 k Hk; cases3 l Hl; ttab; ring. Qed.
Lemma r4_r2_index : forall A B, meq3 (t2 (r4_r2 A B)) (act4 (t4 A) (t2 B)).
Proof. intros A B i j Hi Hj. cases3 i Hi; cases3 j Hj; ttab; ring. Qed.
Lemma mixed_fourth : forall A B,
  meq4 (t4 (ss_ws A B)) (prod4 (t4 (mandel2full A)) (t4 (wws2full B))) /\
  meq4 (t4 (ss_sw A B)) (prod4 (t4 (mandel2full A)) (t4 (skew2full B))) /\
  meq4 (t4 (ws_ss A B)) (prod4 (t4 (wws2full A)) (t4 (mandel2full B))) /\
  meq4 (t4 (sw_ws A B)) (prod4 (t4 (skew2full A)) (t4 (wws2full B))) /\
  meq4 (t4 (ws_sw A B)) (prod4 (t4 (wws2full A)) (t4 (skew2full B))).
Proof. intros A B. repeat split; apply r4_dot_index. Qed.
Lemma mixed_actions : forall A d w,
  meq3 (t2 (ws_sym A d)) (act4 (t4 (wws2full A)) (t2 (usym d))) /\
  meq3 (t2 (sw_skew A w)) (act4 (t4 (skew2full A)) (t2 (uskew w))) /\
  meq3 (t2 (ss_skew A w)) (fun _ _ => 0) /\ meq3 (t2 (ws_skew A w)) (fun _ _ => 0) /\ meq3 (t2 (sw_sym A d)) (fun _ _ => 0).
Proof.
  intros A d w. split; [apply r4_r2_index|]. split; [apply r4_r2_index|].
  repeat split; intros i j Hi Hj; cases3 i Hi; cases3 j Hj; ttab; r2ring.
Qed.
Lemma ss_sym_index : forall A d, meq3 (t2 (usym (ss_sym A d))) (act4 (t4 (mandel2full A)) (t2 (usym d))).
Proof. intros A d i j Hi Hj. cases3 i Hi; cases3 j Hj; ttab; r2ring. Qed.
Lemma ss_dot_index : forall A B, meq4 (t4 (mandel2full (ss_dot A B))) (prod4 (t4 (mandel2full A)) (t4 (mandel2full B))).
Proof. intros A B i j k l Hi Hj Hk Hl. unfold ss_dot. rewrite mandel_mul by assumption. reflexivity. Qed.
Lemma ss_transpose_index : forall A, meq4 (t4 (mandel2full (ss_transpose A))) (fun i j k l => t4 (mandel2full A) k l i j).
Proof. intros A i j k l Hi Hj Hk Hl. cases3 i Hi; cases3 j Hj; cases3 k Hk; cases3 l Hl; ttab; r2ring. Qed.
Lemma douter_ss_index : forall a b, meq4 (t4 (mandel2full (douter_ss a b))) (fun i j k l => t2 (usym a) i j * t2 (usym b) k l).
Proof. intros a b i j k l Hi Hj Hk Hl. cases3 i Hi; cases3 j Hj; cases3 k Hk; cases3 l Hl; ttab; r2ring. Qed.
Lemma douter_ws_index : forall w b, meq4 (t4 (wws2full (douter_ws w b))) (fun i j k l => t2 (uskew w) i j * t2 (usym b) k l).
Proof. intros a b i j k l Hi Hj Hk Hl. cases3 i Hi; cases3 j Hj; cases3 k Hk; cases3 l Hl; ttab; r2ring. Qed.

(** ** Sixth order *)
Lemma outer_k_dot_k : forall A b d i j, dot_k (outer_product_k A b) d i j = A i j * sym_contract b d.
Proof. intros. unfold dot_k, outer_product_k, sym_contract. cbv [rsum]. ring. Qed.
Lemma outer_k_dot_j : forall A b d i k, dot_j (outer_product_k A b) d i k = mv 6 A d i * b k.
Proof. intros. unfold dot_j, outer_product_k, mv. cbv [rsum]. ring. Qed.
Lemma outer_k_dot_i : forall A b d j k, dot_i (outer_product_k A b) d j k = rsum 6 (fun i => d i * A i j) * b k.
Proof. intros. unfold dot_i, outer_product_k. cbv [rsum]. ring. Qed.
Lemma dots_agree : forall A d e f, sym_contract d (mv 6 (dot_k A f) e) = sym_contract d (mv 6 (dot_j A e) f) /\
  sym_contract d (mv 6 (dot_k A f) e) = sym_contract e (mv 6 (dot_i A d) f).
Proof. intros. unfold dot_k, dot_j, dot_i, sym_contract, mv. cbv [rsum]. split; ring. Qed.
(** multiplying by the identity does not give the tensor back *)
Lemma middle_after_wrong : exists A, middle_dot_after A delta 0%nat 1%nat 0%nat <> A 0%nat 1%nat 0%nat.
Proof. exists (fun _ _ _ => 1). unfold middle_dot_after. cbv [rsum delta Nat.eqb]. lra. Qed.
Lemma middle_before_wrong : exists A, middle_dot_before A delta 0%nat 1%nat 0%nat <> A 0%nat 1%nat 0%nat.
Proof. exists (fun _ _ _ => 1). unfold middle_dot_before. cbv [rsum delta Nat.eqb]. lra. Qed.
