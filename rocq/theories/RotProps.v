(** Quaternions, orientations and rotated tensors. *)
From Coq Require Import String ZArith.
From Verif Require Import Base.
From Verif Require Import NemlMathModel NemlMathSpec NemlMathProofs.
From Verif Require Import RotModel RotSpec RotProofs RotMatrix RotConv RotAngles RotMore RotTensor.

(** ** C43: unit quaternion algebra *)
Theorem C43_product_associative : forall a b c, qmul a (qmul b c) = qmul (qmul a b) c.
Proof. exact qmul_assoc. Qed.
Print Assumptions C43_product_associative.
Theorem C43_left_identity : forall a, qmul qone a = a.
Proof. exact qmul_one_l. Qed.
Print Assumptions C43_left_identity.
Theorem C43_right_identity : forall a, qmul a qone = a.
Proof. exact qmul_one_r. Qed.
Print Assumptions C43_right_identity.
(** the inverse of the Quaternion class *)
Theorem C43_inverse_right : forall a, qnorm a <> 0 -> qmul a (qinv a) = qone.
Proof. exact qmul_inv_r. Qed.
Print Assumptions C43_inverse_right.
Theorem C43_inverse_left : forall a, qnorm a <> 0 -> qmul (qinv a) a = qone.
Proof. exact qmul_inv_l. Qed.
Print Assumptions C43_inverse_left.
(** the inverse of the Orientation class *)
Theorem C43_orientation_inverse : forall a, unitq a -> qmul a (qconj a) = qone.
Proof. exact qmul_conj_r. Qed.
Print Assumptions C43_orientation_inverse.
Theorem C43_orientation_inverse_left : forall a, unitq a -> qmul (qconj a) a = qone.
Proof. exact qmul_conj_l. Qed.
Print Assumptions C43_orientation_inverse_left.
Theorem C43_inverses_agree : forall q, unitq q -> qinv q = oinv q.
Proof. exact qinv_unit. Qed.
Print Assumptions C43_inverses_agree.
Theorem C43_division : forall a b, qnorm b <> 0 -> qmul (qdiv a b) b = a.
Proof. exact div_mul_cancel. Qed.
Print Assumptions C43_division.
Theorem C43_orientation_division : forall a b, unitq b -> qmul (odiv a b) b = a.
Proof. exact odiv_mul_cancel. Qed.
Print Assumptions C43_orientation_division.
Theorem C43_norm_multiplicative : forall a b, qnorm (qmul a b) = qnorm a * qnorm b.
Proof. exact qnorm_mul. Qed.
Print Assumptions C43_norm_multiplicative.
Theorem C43_norm_definite : forall q, qnorm q = 0 -> q = Quat 0 0 0 0.
Proof. exact qnorm_zero. Qed.
Print Assumptions C43_norm_definite.
Theorem C43_unit_closed : forall a b, unitq a -> unitq b -> unitq (qmul a b).
Proof. exact unitq_mul. Qed.
Print Assumptions C43_unit_closed.
(** the 4x4 product matrix acts as left multiplication *)
Theorem C43_product_matrix : forall a b i, (i < 4)%nat ->
  rsum 4 (fun j => flat 4 (to_product_matrix a) i j * qcomp b j) = qcomp (qmul a b) i.
Proof. exact product_matrix. Qed.
Print Assumptions C43_product_matrix.
(** constructing an orientation always gives a unit quaternion, in the given direction, unchanged if it already is one *)
Theorem C43_normalized : forall q, unitq (normalize_ q).
Proof. exact normalize_unit. Qed.
Print Assumptions C43_normalized.
Theorem C43_normalized_direction : forall q, qnorm q <> 0 -> qsmul (qnorm q) (normalize_ q) = q.
Proof. exact normalize_direction. Qed.
Print Assumptions C43_normalized_direction.
Theorem C43_normalized_unchanged : forall q, unitq q -> normalize_ q = q.
Proof. exact normalize_id. Qed.
Print Assumptions C43_normalized_unchanged.
Theorem C43_matrix_proper : forall q, unitq q -> is_rot (t2 (to_matrix q)).
Proof. exact to_matrix_rot. Qed.
Print Assumptions C43_matrix_proper.
Theorem C43_matrix_product : forall a b, unitq a -> unitq b ->
  meq3 (t2 (to_matrix (qmul a b))) (mul2 (t2 (to_matrix a)) (t2 (to_matrix b))).
Proof. exact to_matrix_mul. Qed.
Print Assumptions C43_matrix_product.
Theorem C43_matrix_inverse : forall q i j, (i < 3)%nat -> (j < 3)%nat -> t2 (to_matrix (oinv q)) i j = t2 (to_matrix q) j i.
Proof. exact to_matrix_conj. Qed.
Print Assumptions C43_matrix_inverse.
Theorem C43_matrix_identity : meq3 (t2 (to_matrix qone)) id3.
Proof. exact to_matrix_one. Qed.
Print Assumptions C43_matrix_identity.
(** the matrix determines the quaternion up to sign *)
Theorem C43_matrix_determines : forall a b, unitq a -> unitq b -> meq3 (t2 (to_matrix a)) (t2 (to_matrix b)) -> a = b \/ a = qopp b.
Proof. exact same_matrix. Qed.
Print Assumptions C43_matrix_determines.
Theorem C43_vector_matrix : forall q v i, unitq q -> (i < 3)%nat -> apply_v q v i = mv3 (t2 (to_matrix q)) v i.
Proof. exact apply_v_matrix. Qed.
Print Assumptions C43_vector_matrix.
Theorem C43_vector_product : forall a b v i, (i < 3)%nat -> apply_v (qmul a b) v i = apply_v a (apply_v b v) i.
Proof. exact apply_v_mul. Qed.
Print Assumptions C43_vector_product.
Theorem C43_vector_inverse : forall q v i, unitq q -> (i < 3)%nat -> apply_v (oinv q) (apply_v q v) i = v i.
Proof. exact apply_v_inv. Qed.
Print Assumptions C43_vector_inverse.
Theorem C43_vector_inner : forall q v w, unitq q -> ndot (apply_v q v) (apply_v q w) = ndot v w.
Proof. exact apply_v_dot. Qed.
Print Assumptions C43_vector_inner.
Theorem C43_vector_cross : forall q v w i, unitq q -> (i < 3)%nat ->
  ncross (apply_v q v) (apply_v q w) i = apply_v q (ncross v w) i.
Proof. exact apply_v_cross. Qed.
Print Assumptions C43_vector_cross.
Theorem C43_tensor_product : forall a b A, unitq a -> unitq b -> meq3 (t2 (apply_2 (qmul a b) A)) (t2 (apply_2 a (apply_2 b A))).
Proof. exact apply_2_mul. Qed.
Print Assumptions C43_tensor_product.
Theorem C43_symmetric_product : forall a b d, unitq a -> unitq b -> veq 6 (apply_sym (qmul a b) d) (apply_sym a (apply_sym b d)).
Proof. exact apply_sym_mul. Qed.
Print Assumptions C43_symmetric_product.
Theorem C43_skew_product : forall a b w, unitq a -> unitq b -> veq 3 (apply_skew (qmul a b) w) (apply_skew a (apply_skew b w)).
Proof. exact apply_skew_mul. Qed.
Print Assumptions C43_skew_product.
Theorem C43_random_unit : forall u0 u1 u2, 0 <= u0 <= 1 -> unitq (random_quat u0 u1 u2).
Proof. exact random_unit. Qed.
Print Assumptions C43_random_unit.
Example C43_case : unitq (Quat (3 / 5) 0 (4 / 5) 0) /\ qmul (Quat (3 / 5) 0 (4 / 5) 0) (Quat 0 1 0 0) = Quat 0 (3 / 5) 0 (- 4 / 5) /\
  qmul (Quat 0 1 0 0) (Quat (3 / 5) 0 (4 / 5) 0) = Quat 0 (3 / 5) 0 (4 / 5) /\ qnorm (Quat 3 0 4 0) <> 0.
Proof.
  split; [unfold unitq; cbn; lra|]. split; [apply quat_ext; cbn; lra|]. split; [apply quat_ext; cbn; lra|].
  intros H. apply qnorm_zero in H. injection H; intros; lra.
Qed.
Example C43_vector_case : apply_v (Quat (3 / 5) 0 (4 / 5) 0) (fun k => match k with 0%nat => 1 | _ => 0 end) 0%nat = - 7 / 25 /\
  apply_v (Quat (3 / 5) 0 (4 / 5) 0) (fun k => match k with 0%nat => 1 | _ => 0 end) 2%nat = - 24 / 25.
Proof. unfold apply_v; cbn; split; lra. Qed.

(** ** C44: rotated tensors *)
(** the rotated second order tensor is M A M^T *)
Theorem C44_full : forall q A, meq3 (t2 (apply_2 q A)) (turn2 (t2 (to_matrix q)) (t2 A)).
Proof. exact apply_2_turn. Qed.
Print Assumptions C44_full.
Theorem C44_full_identity : forall A, meq3 (t2 (apply_2 qone A)) (t2 A).
Proof. exact apply_2_one. Qed.
Print Assumptions C44_full_identity.
Theorem C44_full_inverse : forall q A, unitq q -> meq3 (t2 (apply_2 (oinv q) (apply_2 q A))) (t2 A).
Proof. exact apply_2_inv. Qed.
Print Assumptions C44_full_inverse.
Theorem C44_inner : forall q A B, unitq q -> ddot22 (apply_2 q A) (apply_2 q B) = ddot22 A B.
Proof. exact apply_2_inner. Qed.
Print Assumptions C44_inner.
Theorem C44_trace : forall q A, unitq q -> tr2 (apply_2 q A) = tr2 A.
Proof. exact apply_2_trace. Qed.
Print Assumptions C44_trace.
Theorem C44_transpose : forall q A i j, (i < 3)%nat -> (j < 3)%nat -> t2 (apply_2 q (tr_2 A)) i j = t2 (apply_2 q A) j i.
Proof. exact apply_2_transpose. Qed.
Print Assumptions C44_transpose.
Theorem C44_symmetric_stays : forall q A, is_sym2 A -> is_sym2 (apply_2 q A).
Proof. exact apply_2_sym. Qed.
Print Assumptions C44_symmetric_stays.
Theorem C44_skew_stays : forall q A, is_skew2 A -> is_skew2 (apply_2 q A).
Proof. exact apply_2_skew. Qed.
Print Assumptions C44_skew_stays.
Theorem C44_products : forall q A B, unitq q -> meq3 (t2 (apply_2 q (mul_2 A B))) (t2 (mul_2 (apply_2 q A) (apply_2 q B))).
Proof. exact apply_2_mul2. Qed.
Print Assumptions C44_products.
(** the Mandel form agrees with the full form *)
Theorem C44_symmetric_full : forall q d, meq3 (t2 (usym (apply_sym q d))) (turn2 (t2 (to_matrix q)) (t2 (usym d))).
Proof. exact apply_sym_full. Qed.
Print Assumptions C44_symmetric_full.
Theorem C44_symmetric_inner : forall q d e, unitq q -> dot 6 (apply_sym q d) (apply_sym q e) = dot 6 d e.
Proof. exact apply_sym_inner. Qed.
Print Assumptions C44_symmetric_inner.
Theorem C44_symmetric_trace : forall q d, unitq q -> I1 (apply_sym q d) = I1 d.
Proof. exact apply_sym_trace. Qed.
Print Assumptions C44_symmetric_trace.
Theorem C44_symmetric_identity : forall d, veq 6 (apply_sym qone d) d.
Proof. exact apply_sym_one. Qed.
Print Assumptions C44_symmetric_identity.
Theorem C44_symmetric_inverse : forall q d, unitq q -> veq 6 (apply_sym (oinv q) (apply_sym q d)) d.
Proof. exact apply_sym_inv. Qed.
Print Assumptions C44_symmetric_inverse.
(** the 6x6 rotation matrix does the same *)
Theorem C44_symmetric_matrix : forall q d, veq 6 (mv 6 (flat 6 (mandel_rot (to_matrix q))) d) (apply_sym q d).
Proof. exact mandel_rot_acts. Qed.
Print Assumptions C44_symmetric_matrix.
Theorem C44_symmetric_matrix_inverse : forall q i j, (i < 6)%nat -> (j < 6)%nat ->
  flat 6 (mandel_rot (to_matrix q)) j i = flat 6 (mandel_rot (to_matrix (oinv q))) i j.
Proof. exact mandel_rot_transpose. Qed.
Print Assumptions C44_symmetric_matrix_inverse.
Theorem C44_skew_full : forall q w, unitq q -> meq3 (t2 (uskew (apply_skew q w))) (turn2 (t2 (to_matrix q)) (t2 (uskew w))).
Proof. exact apply_skew_full. Qed.
Print Assumptions C44_skew_full.
Theorem C44_skew_vector : forall q w i, unitq q -> (i < 3)%nat -> apply_skew q w i = apply_v q w i.
Proof. exact apply_skew_vector. Qed.
Print Assumptions C44_skew_vector.
(** fourth order tensors *)
Theorem C44_fourth : forall q a i j k l, apply_4 q a i j k l = turn4 (t2 (to_matrix q)) (t4 a) i j k l.
Proof. exact apply_4_turn. Qed.
Print Assumptions C44_fourth.
Theorem C44_fourth_acts : forall q A B i j, unitq q -> (i < 3)%nat -> (j < 3)%nat ->
  rsum 3 (fun k => rsum 3 (fun l => apply_4 q A i j k l * t2 (apply_2 q B) k l)) = turn2 (t2 (to_matrix q)) (ddot42 A B) i j.
Proof. exact apply_4_acts. Qed.
Print Assumptions C44_fourth_acts.
(** the 6x6 form of a rotated fourth order tensor is the rotated full tensor *)
Theorem C44_mandel_fourth : forall q C X, (forall a b, (a < 6)%nat -> (b < 6)%nat -> flat 6 X a b = apply_ss q (flat 6 C) a b) ->
  forall i j k l, (i < 3)%nat -> (j < 3)%nat -> (k < 3)%nat -> (l < 3)%nat ->
  t4 (mandel2full X) i j k l = turn4 (t2 (to_matrix q)) (t4 (mandel2full C)) i j k l.
Proof. exact apply_ss_full. Qed.
Print Assumptions C44_mandel_fourth.
Theorem C44_mandel_fourth_acts : forall q C d, unitq q -> veq 6 (mv 6 (apply_ss q C) (apply_sym q d)) (apply_sym q (mv 6 C d)).
Proof. exact apply_ss_acts. Qed.
Print Assumptions C44_mandel_fourth_acts.
Example C44_case : unitq (Quat (3 / 5) 0 (4 / 5) 0) /\
  apply_sym (Quat (3 / 5) 0 (4 / 5) 0) (fun k => match k with 0%nat => 625 | _ => 0 end) 0%nat = 49 /\
  apply_sym (Quat (3 / 5) 0 (4 / 5) 0) (fun k => match k with 0%nat => 625 | _ => 0 end) 2%nat = 576.
Proof.
  split; [unfold unitq; cbn; lra|]. split; rewrite apply_sym_sym by lia; unfold apply_2, mul_2, tr_2, to_matrix, usym, sym; cbn; lra.
Qed.

(** ** C57: orientation formats *)
Theorem C57_matrix : forall M, is_rot (t2 M) ->
  unitq (setMatrix M) /\ meq3 (t2 (to_matrix (setMatrix M))) (t2 M).
Proof. exact setMatrix_rot. Qed.
Print Assumptions C57_matrix.
(** the default orientation, documented as the identity, is a half turn about z *)
Theorem C57_default_refuted : qdefault <> qone /\ unitq qdefault /\ apply_v qdefault (fun k => match k with 0%nat => 1 | _ => 0 end) 0%nat = -1.
Proof. exact default_not_one. Qed.
Print Assumptions C57_default_refuted.
Theorem C57_rodrigues_unit : forall r, unitq (setRodrigues r).
Proof. exact rodrigues_unit. Qed.
Print Assumptions C57_rodrigues_unit.
Theorem C57_rodrigues_back : forall r i, (i < 3)%nat -> to_rodrigues (setRodrigues r) i = r i.
Proof. exact rodrigues_back. Qed.
Print Assumptions C57_rodrigues_back.
(** missing: half turns (refuted below) and the quaternions with a negative scalar part, whose vector is that of the opposite quaternion *)
Theorem C57_rodrigues_forth_partial : forall q, unitq q -> 0 < q0 q -> setRodrigues (to_rodrigues q) = q.
Proof. exact rodrigues_forth. Qed.
Print Assumptions C57_rodrigues_forth_partial.
Theorem C57_rodrigues_half_turn_refuted : unitq (Quat 0 1 0 0) /\ setRodrigues (to_rodrigues (Quat 0 1 0 0)) <> Quat 0 1 0 0.
Proof. exact rodrigues_half_turn_wrong. Qed.
Print Assumptions C57_rodrigues_half_turn_refuted.
Theorem C57_axis_angle_unit : forall n a u q, unit_vec n -> setAxisAngle n a u = Some q -> unitq q.
Proof. exact axis_angle_unit. Qed.
Print Assumptions C57_axis_angle_unit.
(** an axis and an angle give Rodrigues' rotation *)
Theorem C57_axis_angle : forall n a q v i, unit_vec n -> setAxisAngle n a "radians" = Some q -> (i < 3)%nat ->
  apply_v q v i = turned n a v i.
Proof. exact axis_angle_turns. Qed.
Print Assumptions C57_axis_angle.
Theorem C57_axis_angle_degrees : forall n a, setAxisAngle n a "degrees" = setAxisAngle n (a * PI / 180) "radians".
Proof. exact axis_angle_degrees. Qed.
Print Assumptions C57_axis_angle_degrees.
Theorem C57_axis_angle_forth : forall q n a p, unitq q -> 1 / 10 ^ 16 <= a \/ a = 0 ->
  to_axis_angle q "radians" = Some (Some n, a) -> setAxisAngle n a "radians" = Some p -> p = q /\ unit_vec n.
Proof. exact to_axis_angle_sound. Qed.
Print Assumptions C57_axis_angle_forth.
Theorem C57_axis_angle_back : forall n a q, unit_vec n -> 1 / 10 ^ 16 <= a -> a < 2 * PI -> setAxisAngle n a "radians" = Some q ->
  exists m, to_axis_angle q "radians" = Some (Some m, a) /\ forall i, (i < 3)%nat -> m i = n i.
Proof. exact to_axis_angle_back. Qed.
Print Assumptions C57_axis_angle_back.
Theorem C57_euler_kocks : forall a b c, exists q, setEulerAngles a b c "radians" "kocks" = Some q /\ unitq q /\
  meq3 (t2 (to_matrix q)) (kocks a b c).
Proof. exact euler_kocks. Qed.
Print Assumptions C57_euler_kocks.
Theorem C57_euler_roe : forall a b c, exists q, setEulerAngles a b c "radians" "roe" = Some q /\ unitq q /\
  meq3 (t2 (to_matrix q)) (roe a b c).
Proof. exact euler_roe. Qed.
Print Assumptions C57_euler_roe.
(** missing: Phi = 180 degrees, refuted below *)
Theorem C57_euler_bunge_partial : forall a b c, 0 <= b < PI -> exists q, setEulerAngles a b c "radians" "bunge" = Some q /\ unitq q /\
  meq3 (t2 (to_matrix q)) (bunge a b c).
Proof. exact euler_bunge. Qed.
Print Assumptions C57_euler_bunge_partial.
Theorem C57_euler_bunge_refuted : exists q, setEulerAngles 0 PI 0 "radians" "bunge" = Some q /\ t2 (to_matrix q) 2 2 = 1 /\ bunge 0 PI 0 2%nat 2%nat = -1.
Proof. exact euler_bunge_pi. Qed.
Print Assumptions C57_euler_bunge_refuted.
Theorem C57_euler_degrees : forall a b c conv, setEulerAngles a b c "degrees" conv = setEulerAngles (a * PI / 180) (b * PI / 180) (c * PI / 180) "radians" conv.
Proof. exact euler_degrees. Qed.
Print Assumptions C57_euler_degrees.
Theorem C57_euler_rejects : forall a b c u conv,
  (u <> "radians"%string /\ u <> "degrees"%string) \/ (conv <> "kocks"%string /\ conv <> "bunge"%string /\ conv <> "roe"%string) ->
  setEulerAngles a b c u conv = None.
Proof. exact euler_rejects. Qed.
Print Assumptions C57_euler_rejects.
(** missing: rotations that reverse the z axis, refuted below *)
Theorem C57_euler_forth_partial : forall q u conv a b c, unitq q ->
  1 / 10 ^ 15 <= Rabs (Rabs (t2 (to_matrix q) 2 2) - 1) \/ t2 (to_matrix q) 2 2 = 1 ->
  to_euler q u conv = Some (a, b, c) ->
  exists p, setEulerAngles a b c u conv = Some p /\ unitq p /\ meq3 (t2 (to_matrix p)) (t2 (to_matrix q)).
Proof. exact to_euler_sound. Qed.
Print Assumptions C57_euler_forth_partial.
Theorem C57_euler_forth_refuted : exists p, make_crystal_orientation (Quat 0 1 0 0) = Some p /\
  meq3 (t2 (to_matrix p)) id3 /\ t2 (to_matrix (Quat 0 1 0 0)) 2 2 = -1.
Proof. exact to_euler_half_turn. Qed.
Print Assumptions C57_euler_forth_refuted.
Theorem C57_hopf_unit : forall a b c u q, setHopf a b c u = Some q -> unitq q.
Proof. exact hopf_unit. Qed.
Print Assumptions C57_hopf_unit.
Theorem C57_hopf_forth : forall q u a b c, unitq q -> to_hopf q u = Some (a, b, c) -> setHopf a b c u = Some q.
Proof. exact to_hopf_sound. Qed.
Print Assumptions C57_hopf_forth.
Theorem C57_hyperspherical_unit : forall a b c u q, setHyperspherical a b c u = Some q -> unitq q.
Proof. exact hyper_unit. Qed.
Print Assumptions C57_hyperspherical_unit.
Theorem C57_hyperspherical_forth : forall q u a b c, unitq q -> to_hyperspherical q u = Some (a, b, c) -> setHyperspherical a b c u = Some q.
Proof. exact to_hyper_sound. Qed.
Print Assumptions C57_hyperspherical_forth.
(** the identity has no hyperspherical angles: the code divides by zero *)
Theorem C57_hyperspherical_identity_refuted : to_hyperspherical qone "radians" = None.
Proof. exact hyper_identity. Qed.
Print Assumptions C57_hyperspherical_identity_refuted.
Theorem C57_vectors : forall x y, unit_vec x -> unit_vec y -> ndot x y = 0 ->
  exists q, setVectors x y = Some q /\ unitq q /\
  forall i, (i < 3)%nat -> t2 (to_matrix q) i 0 = x i /\ t2 (to_matrix q) i 1 = y i /\ t2 (to_matrix q) i 2 = ncross x y i.
Proof. exact vectors_sound. Qed.
Print Assumptions C57_vectors.
(** the constructor claims to reject vectors that are not orthonormal, but accepts vectors of any length *)
Theorem C57_vectors_not_unit_refuted : exists x y q, setVectors x y = Some q /\ ndot x x = 4 /\ ~ unitq q.
Proof. exact vectors_not_unit. Qed.
Print Assumptions C57_vectors_not_unit_refuted.
Example C57_case : unit_vec (fun k => match k with 0%nat => 3 / 5 | 1%nat => 4 / 5 | _ => 0 end) /\
  unitq (Quat (3 / 5) 0 (4 / 5) 0) /\ 0 < q0 (Quat (3 / 5) 0 (4 / 5) 0) /\
  (1 / 10 ^ 15 <= Rabs (Rabs (t2 (to_matrix (Quat (3 / 5) 0 (4 / 5) 0)) 2 2) - 1)).
Proof.
  split; [unfold unit_vec, ndot; cbn; lra|]. split; [unfold unitq; cbn; lra|]. split; [cbn; lra|].
  assert (H : t2 (to_matrix (Quat (3 / 5) 0 (4 / 5) 0)) 2 2 = - (7 / 25)) by (unfold t2, to_matrix; cbn; lra).
  rewrite H, Rabs_Ropp, (Rabs_pos_eq (7 / 25)) by lra. rewrite Rabs_left by lra. lra.
Qed.

(** ** C58: distance, exponential map, powers *)
Theorem C58_distance_symmetric : forall a b, distance a b = distance b a.
Proof. exact distance_sym. Qed.
Print Assumptions C58_distance_symmetric.
Theorem C58_distance_triangle : forall a b c, unitq a -> unitq b -> unitq c -> distance a c <= distance a b + distance b c.
Proof. exact distance_triangle. Qed.
Print Assumptions C58_distance_triangle.
(** the distance vanishes exactly for quaternions of the same rotation *)
Theorem C58_distance_zero : forall a b, unitq a -> unitq b -> (distance a b = 0 <-> a = b \/ a = qopp b).
Proof. exact distance_zero. Qed.
Print Assumptions C58_distance_zero.
Theorem C58_distance_range : forall a b, unitq a -> unitq b -> 0 <= distance a b <= PI / 2.
Proof. exact distance_range. Qed.
Print Assumptions C58_distance_range.
Theorem C58_distance_sign : forall a b, distance (qopp a) b = distance a b.
Proof. exact distance_opp. Qed.
Print Assumptions C58_distance_sign.
Theorem C58_distance_left : forall c a b, unitq c -> distance (qmul c a) (qmul c b) = distance a b.
Proof. exact distance_left. Qed.
Print Assumptions C58_distance_left.
Theorem C58_distance_right : forall c a b, unitq c -> distance (qmul a c) (qmul b c) = distance a b.
Proof. exact distance_right. Qed.
Print Assumptions C58_distance_right.
(** the distance is half the angle of the misorientation *)
Theorem C58_distance_angle : forall a b n t q, unitq a -> unitq b -> unit_vec n -> 0 <= t <= PI -> setAxisAngle n t "radians" = Some q ->
  b = qmul q a -> distance a b = t / 2.
Proof. exact distance_angle. Qed.
Print Assumptions C58_distance_angle.
Theorem C58_exponential_unit : forall w, unitq (wexp w).
Proof. exact wexp_unit. Qed.
Print Assumptions C58_exponential_unit.
(** missing: the zero spin, refuted below *)
Theorem C58_exponential_partial : forall w v i, norm3 w <> 0 -> (i < 3)%nat -> apply_v (wexp w) v i = turned (fun k => w k / norm3 w) (norm3 w) v i.
Proof. exact wexp_turns. Qed.
Print Assumptions C58_exponential_partial.
(** the exponential of the zero spin is not the identity *)
Theorem C58_exponential_zero_refuted : apply_v (wexp (fun _ => 0)) (fun k => match k with 0%nat => 1 | _ => 0 end) 0%nat = -1.
Proof. exact wexp_zero. Qed.
Print Assumptions C58_exponential_zero_refuted.
Theorem C58_log_exp : forall w, 0 < norm3 w < 2 * PI -> exists l, wlog (wexp w) = Some l /\ forall i, (i < 3)%nat -> l i = w i.
Proof. exact wlog_wexp. Qed.
Print Assumptions C58_log_exp.
Theorem C58_exp_log : forall q l, unitq q -> wlog q = Some l -> wexp l = q.
Proof. exact wexp_wlog. Qed.
Print Assumptions C58_exp_log.
(** the logarithm of a scaled quaternion; the exponential ignores the scalar part *)
Theorem C58_quaternion_log_scaled : forall k u l, 0 < k -> unitq u -> qlog u = Some l ->
  q0 l = 0 /\ qlog (qsmul k u) = Some (Quat (ln k) (q1 l) (q2 l) (q3 l)) /\ qexp (Quat (ln k) (q1 l) (q2 l) (q3 l)) = Some u.
Proof. exact log_scaled. Qed.
Print Assumptions C58_quaternion_log_scaled.
Theorem C58_log_identity_refuted : wlog qone = None.
Proof. exact wlog_identity. Qed.
Print Assumptions C58_log_identity_refuted.
Theorem C58_quaternion_exp_log : forall q, unitq q -> qvnorm q <> 0 -> exists l, qlog q = Some l /\ qexp l = Some q.
Proof. exact exp_log. Qed.
Print Assumptions C58_quaternion_exp_log.
Theorem C58_power_one : forall q, unitq q -> qvnorm q <> 0 -> qpow q 1 = Some q.
Proof. exact pow_one. Qed.
Print Assumptions C58_power_one.
Theorem C58_power_add : forall q u w a b, unitq q -> u <> 0 -> w <> 0 -> u + w <> 0 -> qpow q u = Some a -> qpow q w = Some b -> qpow q (u + w) = Some (qmul a b).
Proof. exact pow_add. Qed.
Print Assumptions C58_power_add.
Theorem C58_power_not_unit_refuted : qpow (Quat 0 2 0 0) 2 <> Some (qmul (Quat 0 2 0 0) (Quat 0 2 0 0)).
Proof. exact pow_not_unit. Qed.
Print Assumptions C58_power_not_unit_refuted.
Theorem C58_power_identity_refuted : forall w, qpow qone w = None.
Proof. exact pow_identity. Qed.
Print Assumptions C58_power_identity_refuted.
Theorem C58_rotate_to : forall a b q i, rotate_to a b = Some q -> (i < 3)%nat ->
  unitq q /\ apply_v q (fun k => a k / norm3 a) i = b i / norm3 b.
Proof. exact rotate_to_sound. Qed.
Print Assumptions C58_rotate_to.
Theorem C58_rotate_to_parallel_refuted : rotate_to (fun k => match k with 0%nat => 1 | _ => 0 end) (fun k => match k with 0%nat => 1 | _ => 0 end) = None.
Proof. exact rotate_to_parallel. Qed.
Print Assumptions C58_rotate_to_parallel_refuted.
Theorem C58_rotate_to_family : forall a b ang q i, unit_vec b -> rotate_to_family a b ang = Some q -> (i < 3)%nat ->
  unitq q /\ apply_v q (fun k => a k / norm3 a) i = b i.
Proof. exact rotate_to_family_sound. Qed.
Print Assumptions C58_rotate_to_family.
Example C58_case : norm3 (fun k => match k with 0%nat => 3 / 5 | 1%nat => 4 / 5 | _ => 0 end) = 1 /\
  qvnorm (Quat (3 / 5) 0 (4 / 5) 0) = 4 / 5 /\ unitq (Quat (3 / 5) 0 (4 / 5) 0) /\
  distance (Quat (3 / 5) 0 (4 / 5) 0) (Quat (4 / 5) 0 (- 3 / 5) 0) = PI / 2.
Proof.
  split; [unfold norm3, dot3; cbn; apply sqrt_lem_1; lra|]. split; [unfold qvnorm; cbn; apply sqrt_lem_1; lra|].
  split; [unfold unitq; cbn; lra|]. rewrite distance_unit by (unfold unitq; cbn; lra).
  replace (qdot _ _) with 0 by (unfold qdot; cbn; lra). rewrite Rabs_R0. apply acos_0.
Qed.
