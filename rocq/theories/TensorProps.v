(** The tensor classes against index notation. *)
From Verif Require Import Base.
From Verif Require Import NemlMathModel NemlMathSpec NemlMathProofs.
From Verif Require Import RotModel RotSpec TensorModel TensorSpec TensorProofs.

(** ** C45 *)
(** building a Symmetric from a full tensor takes the symmetric part, a Skew the skew part, and they add up *)
Theorem C45_symmetric_of_full : forall A, meq3 (t2 (usym (mk_symmetric A))) (symm2 (t2 A)).
Proof. exact usym_mk_symmetric. Qed.
Print Assumptions C45_symmetric_of_full.
Theorem C45_symmetric_round_trip : forall d, veq 6 (mk_symmetric (usym d)) d.
Proof. exact mk_symmetric_usym. Qed.
Print Assumptions C45_symmetric_round_trip.
Theorem C45_skew_of_full : forall A, meq3 (t2 (uskew (mk_skew A))) (skewp2 (t2 A)).
Proof. exact uskew_mk_skew. Qed.
Print Assumptions C45_skew_of_full.
Theorem C45_skew_round_trip : forall w, veq 3 (mk_skew (uskew w)) w.
Proof. exact mk_skew_uskew. Qed.
Print Assumptions C45_skew_round_trip.
Theorem C45_parts_add_up : forall A, meq3 (t2 A) (add2 (t2 (usym (mk_symmetric A))) (t2 (uskew (mk_skew A)))).
Proof. exact split_parts. Qed.
Print Assumptions C45_parts_add_up.
Theorem C45_symmetric_of_skew : forall w, veq 6 (mk_symmetric (uskew w)) (fun _ => 0).
Proof. exact mk_symmetric_skew_zero. Qed.
Print Assumptions C45_symmetric_of_skew.
Theorem C45_skew_of_symmetric : forall d, veq 3 (mk_skew (usym d)) (fun _ => 0).
Proof. exact mk_skew_symmetric_zero. Qed.
Print Assumptions C45_skew_of_symmetric.
Theorem C45_mixed_sums : forall A d w, meq3 (t2 (add_full_sym A d)) (add2 (t2 A) (t2 (usym d))) /\
  meq3 (t2 (sub_full_sym A d)) (sub2 (t2 A) (t2 (usym d))) /\ meq3 (t2 (sub_sym_full d A)) (sub2 (t2 (usym d)) (t2 A)) /\
  meq3 (t2 (add_full_skew A w)) (add2 (t2 A) (t2 (uskew w))) /\
  meq3 (t2 (sub_full_skew A w)) (sub2 (t2 A) (t2 (uskew w))) /\ meq3 (t2 (sub_skew_full w A)) (sub2 (t2 (uskew w)) (t2 A)).
Proof. exact mixed_sums. Qed.
Print Assumptions C45_mixed_sums.
Theorem C45_product : forall A B, meq3 (t2 (mul_2 A B)) (mul2 (t2 A) (t2 B)).
Proof. exact mul_2_t2. Qed.
Print Assumptions C45_product.
Theorem C45_mixed_products : forall A d w, meq3 (t2 (full_sym A d)) (mul2 (t2 A) (t2 (usym d))) /\
  meq3 (t2 (sym_full d A)) (mul2 (t2 (usym d)) (t2 A)) /\ meq3 (t2 (full_skew A w)) (mul2 (t2 A) (t2 (uskew w))) /\
  meq3 (t2 (skew_full w A)) (mul2 (t2 (uskew w)) (t2 A)) /\ meq3 (t2 (sym_skew d w)) (mul2 (t2 (usym d)) (t2 (uskew w))) /\
  meq3 (t2 (skew_sym w d)) (mul2 (t2 (uskew w)) (t2 (usym d))).
Proof. exact mixed_products. Qed.
Print Assumptions C45_mixed_products.
Theorem C45_vector_products : forall A v i, (i < 3)%nat ->
  r2_vec A v i = mv3 (t2 A) v i /\ vec_r2 v A i = rsum 3 (fun k => v k * t2 A k i).
Proof. exact vector_products. Qed.
Print Assumptions C45_vector_products.
Theorem C45_outer : forall a b, meq3 (t2 (outer3 a b)) (fun i j => a i * b j).
Proof. exact outer_entry. Qed.
Print Assumptions C45_outer.
Theorem C45_normalize : forall v w, normalize3 v = Some w -> unit_vec w /\ exists c, 0 < c /\ forall i, v i = c * w i.
Proof. exact normalize3_sound. Qed.
Print Assumptions C45_normalize.
Theorem C45_contract : forall A B, contract9 A B = inner2 (t2 A) (t2 B).
Proof. exact contract_inner. Qed.
Print Assumptions C45_contract.
Theorem C45_contract_symmetric : forall d e, sym_contract d e = inner2 (t2 (usym d)) (t2 (usym e)).
Proof. exact sym_contract_inner. Qed.
Print Assumptions C45_contract_symmetric.
Theorem C45_contract_symmetric_skew : forall d w, sym_contract_skew d w = inner2 (t2 (usym d)) (t2 (uskew w)) /\ sym_contract_skew d w = 0.
Proof. exact sym_contract_skew_zero. Qed.
Print Assumptions C45_contract_symmetric_skew.
Theorem C45_contract_skew : forall w x, skew_contract w x = inner2 (t2 (uskew w)) (t2 (uskew x)).
Proof. exact skew_contract_inner. Qed.
Print Assumptions C45_contract_skew.
Theorem C45_norm_symmetric : forall d, 0 <= sym_norm d /\ sym_norm d * sym_norm d = inner2 (t2 (usym d)) (t2 (usym d)) /\ sym_norm d * sym_norm d = sym_contract d d.
Proof. exact sym_norm_value. Qed.
Print Assumptions C45_norm_symmetric.
Theorem C45_trace : forall d, sym_trace d = trace2 (t2 (usym d)).
Proof. exact sym_trace_full. Qed.
Print Assumptions C45_trace.
Theorem C45_deviator : forall d, meq3 (t2 (usym (sym_dev d))) (sub2 (t2 (usym d)) (fun i j => trace2 (t2 (usym d)) / 3 * delta i j)) /\ sym_trace (sym_dev d) = 0.
Proof. exact sym_dev_full. Qed.
Print Assumptions C45_deviator.
(** the product of two Symmetric objects is only the symmetric part of the product: right exactly for commuting tensors *)
Theorem C45_symmetric_product_part : forall d e, meq3 (t2 (usym (sym_dot d e))) (symm2 (mul2 (t2 (usym d)) (t2 (usym e)))).
Proof. exact sym_dot_part. Qed.
Print Assumptions C45_symmetric_product_part.
Theorem C45_symmetric_product_commuting : forall d e, meq3 (mul2 (t2 (usym d)) (t2 (usym e))) (mul2 (t2 (usym e)) (t2 (usym d))) ->
  meq3 (t2 (usym (sym_dot d e))) (mul2 (t2 (usym d)) (t2 (usym e))).
Proof. exact sym_dot_commuting. Qed.
Print Assumptions C45_symmetric_product_commuting.
Theorem C45_symmetric_product_refuted : exists d e, t2 (usym (sym_dot d e)) 0 1 <> mul2 (t2 (usym d)) (t2 (usym e)) 0%nat 1%nat.
Proof. exact sym_dot_wrong. Qed.
Print Assumptions C45_symmetric_product_refuted.
(** the product of two Skew objects is only the skew part *)
Theorem C45_skew_product_part : forall w x, meq3 (t2 (uskew (skew_dot w x))) (skewp2 (mul2 (t2 (uskew w)) (t2 (uskew x)))).
Proof. exact skew_dot_part. Qed.
Print Assumptions C45_skew_product_part.
Theorem C45_skew_square_zero : forall w, veq 3 (skew_dot w w) (fun _ => 0).
Proof. exact skew_dot_square. Qed.
Print Assumptions C45_skew_square_zero.
Theorem C45_skew_product_refuted : exists w, t2 (uskew (skew_dot w w)) 0 0 <> mul2 (t2 (uskew w)) (t2 (uskew w)) 0%nat 0%nat.
Proof. exact skew_dot_wrong. Qed.
Print Assumptions C45_skew_product_refuted.
Theorem C45_symmetric_inverse : forall inv9 d x,
  (forall A X, inv9 A = Some X -> meq3 (mul2 (t2 A) (t2 X)) delta /\ meq3 (mul2 (t2 X) (t2 A)) delta) ->
  sym_inverse inv9 d = Some x -> meq3 (mul2 (t2 (usym d)) (t2 (usym x))) delta.
Proof. exact sym_inverse_sound. Qed.
Print Assumptions C45_symmetric_inverse.
Theorem C45_fourth_product : forall A B, meq4 (t4 (r4_dot A B)) (prod4 (t4 A) (t4 B)).
Proof. exact r4_dot_index. Qed.
Print Assumptions C45_fourth_product.
Theorem C45_fourth_action : forall A B, meq3 (t2 (r4_r2 A B)) (act4 (t4 A) (t2 B)).
Proof. exact r4_r2_index. Qed.
Print Assumptions C45_fourth_action.
Theorem C45_mixed_fourth_products : forall A B,
  meq4 (t4 (ss_ws A B)) (prod4 (t4 (mandel2full A)) (t4 (wws2full B))) /\
  meq4 (t4 (ss_sw A B)) (prod4 (t4 (mandel2full A)) (t4 (skew2full B))) /\
  meq4 (t4 (ws_ss A B)) (prod4 (t4 (wws2full A)) (t4 (mandel2full B))) /\
  meq4 (t4 (sw_ws A B)) (prod4 (t4 (skew2full A)) (t4 (wws2full B))) /\
  meq4 (t4 (ws_sw A B)) (prod4 (t4 (wws2full A)) (t4 (skew2full B))).
Proof. exact mixed_fourth. Qed.
Print Assumptions C45_mixed_fourth_products.
Theorem C45_mixed_fourth_actions : forall A d w,
  meq3 (t2 (ws_sym A d)) (act4 (t4 (wws2full A)) (t2 (usym d))) /\
  meq3 (t2 (sw_skew A w)) (act4 (t4 (skew2full A)) (t2 (uskew w))) /\
  meq3 (t2 (ss_skew A w)) (fun _ _ => 0) /\ meq3 (t2 (ws_skew A w)) (fun _ _ => 0) /\ meq3 (t2 (sw_sym A d)) (fun _ _ => 0).
Proof. exact mixed_actions. Qed.
Print Assumptions C45_mixed_fourth_actions.
Theorem C45_mandel_action : forall A d, meq3 (t2 (usym (ss_sym A d))) (act4 (t4 (mandel2full A)) (t2 (usym d))).
Proof. exact ss_sym_index. Qed.
Print Assumptions C45_mandel_action.
Theorem C45_mandel_product : forall A B, meq4 (t4 (mandel2full (ss_dot A B))) (prod4 (t4 (mandel2full A)) (t4 (mandel2full B))).
Proof. exact ss_dot_index. Qed.
Print Assumptions C45_mandel_product.
Theorem C45_mandel_transpose : forall A, meq4 (t4 (mandel2full (ss_transpose A))) (fun i j k l => t4 (mandel2full A) k l i j).
Proof. exact ss_transpose_index. Qed.
Print Assumptions C45_mandel_transpose.
Theorem C45_dyadic : forall a b, meq4 (t4 (mandel2full (douter_ss a b))) (fun i j k l => t2 (usym a) i j * t2 (usym b) k l).
Proof. exact douter_ss_index. Qed.
Print Assumptions C45_dyadic.
Theorem C45_dyadic_skew : forall w b, meq4 (t4 (wws2full (douter_ws w b))) (fun i j k l => t2 (uskew w) i j * t2 (usym b) k l).
Proof. exact douter_ws_index. Qed.
Print Assumptions C45_dyadic_skew.
Theorem C45_sixth_outer_k : forall A b d i j, dot_k (outer_product_k A b) d i j = A i j * sym_contract b d.
Proof. exact outer_k_dot_k. Qed.
Print Assumptions C45_sixth_outer_k.
Theorem C45_sixth_outer_j : forall A b d i k, dot_j (outer_product_k A b) d i k = mv 6 A d i * b k.
Proof. exact outer_k_dot_j. Qed.
Print Assumptions C45_sixth_outer_j.
Theorem C45_sixth_outer_i : forall A b d j k, dot_i (outer_product_k A b) d j k = rsum 6 (fun i => d i * A i j) * b k.
Proof. exact outer_k_dot_i. Qed.
Print Assumptions C45_sixth_outer_i.
Theorem C45_sixth_contractions : forall A d e f, sym_contract d (mv 6 (dot_k A f) e) = sym_contract d (mv 6 (dot_j A e) f) /\
  sym_contract d (mv 6 (dot_k A f) e) = sym_contract e (mv 6 (dot_i A d) f).
Proof. exact dots_agree. Qed.
Print Assumptions C45_sixth_contractions.
(** the middle products do not contract: multiplying by the identity changes the tensor *)
Theorem C45_middle_dot_after_refuted : exists A, middle_dot_after A delta 0%nat 1%nat 0%nat <> A 0%nat 1%nat 0%nat.
Proof. exact middle_after_wrong. Qed.
Print Assumptions C45_middle_dot_after_refuted.
Theorem C45_middle_dot_before_refuted : exists A, middle_dot_before A delta 0%nat 1%nat 0%nat <> A 0%nat 1%nat 0%nat.
Proof. exact middle_before_wrong. Qed.
Print Assumptions C45_middle_dot_before_refuted.
Example C45_tensor_case : let A := fun k => nth k [1; 2; 3; 4; 5; 6; 7; 8; 9] 0 in
  t2 (usym (mk_symmetric A)) 0 1 = 3 /\ t2 (uskew (mk_skew A)) 0 1 = -1 /\ contract9 A A = 285 /\
  meq3 (mul2 (t2 (usym (sym A))) (t2 (usym (sym A)))) (mul2 (t2 (usym (sym A))) (t2 (usym (sym A)))).
Proof.
  intros A. rewrite usym_mk_symmetric, uskew_mk_skew by lia. unfold symm2, skewp2, t2, A, contract9. cbn. repeat split; lra || (intros i j _ _; reflexivity).
Qed.
(** an inversion routine meeting the hypothesis of [C45_symmetric_inverse]: diagonal tensors *)
Example C45_inverse_case : exists inv9 d x, sym_inverse inv9 d = Some x /\
  (forall A X, inv9 A = Some X -> meq3 (mul2 (t2 A) (t2 X)) delta /\ meq3 (mul2 (t2 X) (t2 A)) delta).
Proof.
  exists (fun A => if Req_EM_T (A 0%nat) 2 then if Req_EM_T (A 1%nat) 0 then if Req_EM_T (A 2%nat) 0 then if Req_EM_T (A 3%nat) 0 then if Req_EM_T (A 4%nat) 4 then
    if Req_EM_T (A 5%nat) 0 then if Req_EM_T (A 6%nat) 0 then if Req_EM_T (A 7%nat) 0 then if Req_EM_T (A 8%nat) 5 then
      Some (fun k => nth k [/ 2; 0; 0; 0; / 4; 0; 0; 0; / 5] 0) else None else None else None else None else None else None else None else None else None),
    (fun k => nth k [2; 4; 5; 0; 0; 0] 0).
  eexists. split.
  - unfold sym_inverse, usym. cbn. unfold Rdiv. rewrite !Rmult_0_l.
    repeat (destruct (Req_EM_T _ _); [|lra]). reflexivity.
  - intros A X. repeat (destruct (Req_EM_T _ _); [|discriminate]). intros E. injection E as <-.
    split; intros i j Hi Hj; cases3 i Hi; cases3 j Hj; tab; cbv [nth];
    repeat match goal with H : A _ = _ |- _ => rewrite H; clear H end; lra.
Qed.
