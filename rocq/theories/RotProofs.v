(** Proofs about quaternions, rotation matrices and conversions (src/math/rotations.cxx). *)
From Coq Require Import String ZArith.
From Verif Require Import Base.
From Verif Require Import Diff.
From Verif Require Import NemlMathModel.
From Verif Require Import NemlMathSpec.
From Verif Require Import NemlMathProofs.
From Verif Require Import RotModel.
From Verif Require Import RotSpec.

Ltac qtab := cbv [t2 t4 flat mul2 rsum Nat.add Nat.mul delta Nat.eqb mv3 id3 det3 ndot ncross turned
  to_matrix kocks_to_matrix_ to_product_matrix qcomp apply_v apply_2 tr_2 mul_2 apply_skew cross3 dot3
  zframe xframe bunge kocks roe turn2 usym sym uskew skew
  qmul qconj qopp qsmul qflip qone unitq qdot q0 q1 q2 q3].

Ltac dq q := let a := fresh "a" in let b := fresh "b" in let c := fresh "c" in let d := fresh "d" in destruct q as [a b c d].
Lemma quat_ext : forall a b, q0 a = q0 b -> q1 a = q1 b -> q2 a = q2 b -> q3 a = q3 b -> a = b.
Proof. intros [a0 a1 a2 a3] [b0 b1 b2 b3]; cbn; intros; subst; reflexivity. Qed.
Ltac qext := apply quat_ext; qtab.

(** ** Algebra *)
Lemma qmul_assoc : forall a b c, qmul a (qmul b c) = qmul (qmul a b) c.
Proof. intros p1 p2 p3; dq p1; dq p2; dq p3; qext; ring. Qed.
Lemma qmul_one_l : forall a, qmul qone a = a.
Proof. intros p1; dq p1; qext; ring. Qed.
Lemma qmul_one_r : forall a, qmul a qone = a.
Proof. intros p1; dq p1; qext; ring. Qed.
Lemma qconj_mul : forall a b, qconj (qmul a b) = qmul (qconj b) (qconj a).
Proof. intros p1 p2; dq p1; dq p2; qext; ring. Qed.
Definition nsq (q : quat) := q0 q * q0 q + q1 q * q1 q + q2 q * q2 q + q3 q * q3 q.
Lemma nsq_pos : forall q, 0 <= nsq q.
Proof. intros p1; dq p1; unfold nsq; cbn [q0 q1 q2 q3]; nra. Qed.
Lemma nsq_mul : forall a b, nsq (qmul a b) = nsq a * nsq b.
Proof. intros p1 p2; dq p1; dq p2; unfold nsq; qtab; ring. Qed.
Lemma qnorm_nsq : forall q, qnorm q = sqrt (nsq q).
Proof. reflexivity. Qed.
Lemma qnorm_mul : forall a b, qnorm (qmul a b) = qnorm a * qnorm b.
Proof. intros. rewrite !qnorm_nsq, nsq_mul. apply sqrt_mult; apply nsq_pos. Qed.
Lemma qnorm_sqr : forall q, qnorm q * qnorm q = nsq q.
Proof. intros. rewrite qnorm_nsq. apply sqrt_sqrt, nsq_pos. Qed.
Lemma qnorm_zero : forall q, qnorm q = 0 -> q = Quat 0 0 0 0.
Proof.
  intros q H. pose proof (qnorm_sqr q) as S. rewrite H in S. destruct q as [a b c d]. unfold nsq in S. cbn [q0 q1 q2 q3] in S.
  assert (a = 0) by nra. assert (b = 0) by nra. assert (c = 0) by nra. assert (d = 0) by nra. subst. reflexivity.
Qed.
Lemma unitq_norm : forall q, unitq q <-> qnorm q = 1.
Proof.
  intros q. split; intros H.
  - rewrite qnorm_nsq. unfold nsq. unfold unitq in H. rewrite H. apply sqrt_1.
  - pose proof (qnorm_sqr q) as S. rewrite H in S. unfold unitq. unfold nsq in S. lra.
Qed.
Lemma unitq_mul : forall a b, unitq a -> unitq b -> unitq (qmul a b).
Proof. intros a b Ha Hb. unfold unitq. fold (nsq (qmul a b)). rewrite nsq_mul. unfold unitq in Ha, Hb. unfold nsq. rewrite Ha, Hb. ring. Qed.
Lemma unitq_conj : forall a, unitq a -> unitq (qconj a).
Proof. intros p1 H. dq p1. revert H. qtab. intros H. rewrite <- H. ring. Qed.
Lemma unitq_opp : forall a, unitq a -> unitq (qopp a).
Proof. intros p1 H. dq p1. revert H. qtab. intros H. rewrite <- H. ring. Qed.
Lemma qmul_conj_r : forall a, unitq a -> qmul a (qconj a) = qone.
Proof. intros p1 H. dq p1. revert H. qtab. intros H. f_equal; try ring. rewrite <- H. ring. Qed.
Lemma qmul_conj_l : forall a, unitq a -> qmul (qconj a) a = qone.
Proof. intros p1 H. dq p1. revert H. qtab. intros H. f_equal; try ring. rewrite <- H. ring. Qed.
Lemma qmul_inv_r : forall a, qnorm a <> 0 -> qmul a (qinv a) = qone.
Proof.
  intros q H. pose proof (qnorm_sqr q) as S. unfold qinv. cbv zeta. set (n := qnorm q) in *. rewrite S.
  assert (N : nsq q <> 0). { rewrite <- S. intros E. apply Rmult_integral in E. tauto. }
  dq q. unfold nsq in *. qtab. cbn [q0 q1 q2 q3] in N. f_equal; field; exact N.
Qed.
Lemma qmul_inv_l : forall a, qnorm a <> 0 -> qmul (qinv a) a = qone.
Proof.
  intros q H. pose proof (qnorm_sqr q) as S. unfold qinv. cbv zeta. set (n := qnorm q) in *. rewrite S.
  assert (N : nsq q <> 0). { rewrite <- S. intros E. apply Rmult_integral in E. tauto. }
  dq q. unfold nsq in *. qtab. cbn [q0 q1 q2 q3] in N. f_equal; field; exact N.
Qed.
Lemma qinv_unit : forall q, unitq q -> qinv q = oinv q.
Proof.
  intros q H. apply unitq_norm in H. unfold qinv, oinv, qconj. cbv zeta. rewrite H. dq q; cbn. f_equal; field.
Qed.
Lemma product_matrix : forall a b i, (i < 4)%nat ->
  rsum 4 (fun j => flat 4 (to_product_matrix a) i j * qcomp b j) = qcomp (qmul a b) i.
Proof.
  intros p1 p2 i Hi. dq p1; dq p2. destruct i as [|[|[|[|i]]]]; [| | | |lia]; qtab; ring.
Qed.
Lemma div_mul_cancel : forall a b, qnorm b <> 0 -> qmul (qdiv a b) b = a.
Proof. intros a b H. unfold qdiv. rewrite <- qmul_assoc, qmul_inv_l by exact H. apply qmul_one_r. Qed.
Lemma odiv_mul_cancel : forall a b, unitq b -> qmul (odiv a b) b = a.
Proof. intros a b H. unfold odiv, oinv. rewrite <- qmul_assoc, qmul_conj_l by exact H. apply qmul_one_r. Qed.

(** ** Normalisation *)
Lemma normalize_unit : forall q, unitq (normalize_ q).
Proof.
  intros q. unfold normalize_. cbv zeta. destruct (Req_EM_T (qnorm q) 0) as [E|N].
  - qtab. ring.
  - pose proof (qnorm_sqr q) as S. unfold unitq, nsq in *. cbn [q0 q1 q2 q3].
    replace 1 with ((qnorm q * qnorm q) / (qnorm q * qnorm q)) by (field; exact N).
    rewrite S at 1. field. exact N.
Qed.
Lemma normalize_direction : forall q, qnorm q <> 0 -> qsmul (qnorm q) (normalize_ q) = q.
Proof.
  intros q N. unfold normalize_. cbv zeta. destruct (Req_EM_T (qnorm q) 0) as [E|_]; [contradiction|].
  dq q. apply quat_ext; cbn [qsmul q0 q1 q2 q3]; field; exact N.
Qed.
Lemma normalize_id : forall q, unitq q -> normalize_ q = q.
Proof.
  intros q H. apply unitq_norm in H. unfold normalize_. cbv zeta. rewrite H. destruct (Req_EM_T 1 0) as [E|_]; [lra|].
  dq q; cbn [q0 q1 q2 q3]. f_equal; field.
Qed.

(** ** Rotation matrices *)
Lemma to_matrix_rot : forall q, unitq q -> is_rot (t2 (to_matrix q)).
Proof.
  intros [a b c d] H. unfold unitq in H. cbn [q0 q1 q2 q3] in H.
  assert (A : a * a = 1 - b * b - c * c - d * d) by lra. clear H. split.
  - intros i j Hi Hj. cases3 i Hi; cases3 j Hj; qtab; ring [A].
  - qtab. ring [A].
Qed.
Lemma to_matrix_mul : forall a b, unitq a -> unitq b ->
  meq3 (t2 (to_matrix (qmul a b))) (mul2 (t2 (to_matrix a)) (t2 (to_matrix b))).
Proof.
  intros [a b c d] [a' b' c' d'] H H' i j Hi Hj. unfold unitq in *. cbn [q0 q1 q2 q3] in *.
  assert (A : a * a = 1 - b * b - c * c - d * d) by lra. assert (A' : a' * a' = 1 - b' * b' - c' * c' - d' * d') by lra. clear H H'.
  cases3 i Hi; cases3 j Hj; qtab; ring [A A'].
Qed.
Lemma to_matrix_conj : forall q i j, (i < 3)%nat -> (j < 3)%nat -> t2 (to_matrix (oinv q)) i j = t2 (to_matrix q) j i.
Proof. intros p1 i j Hi Hj. dq p1. unfold oinv. cases3 i Hi; cases3 j Hj; qtab; ring. Qed.
Lemma to_matrix_opp : forall q, meq3 (t2 (to_matrix (qopp q))) (t2 (to_matrix q)).
Proof. intros p1 i j Hi Hj. dq p1. cases3 i Hi; cases3 j Hj; qtab; ring. Qed.
Lemma to_matrix_one : meq3 (t2 (to_matrix qone)) id3.
Proof. intros i j Hi Hj. cases3 i Hi; cases3 j Hj; qtab; ring. Qed.
Lemma apply_v_matrix : forall q v i, unitq q -> (i < 3)%nat -> apply_v q v i = mv3 (t2 (to_matrix q)) v i.
Proof.
  intros [a b c d] v i H Hi. unfold unitq in H. cbn [q0 q1 q2 q3] in H. assert (A : a * a = 1 - b * b - c * c - d * d) by lra. clear H.
  cases3 i Hi; qtab; ring [A].
Qed.
Lemma apply_v_mul : forall a b v i, (i < 3)%nat -> apply_v (qmul a b) v i = apply_v a (apply_v b v) i.
Proof. intros p1 p2 v i Hi. dq p1; dq p2. cases3 i Hi; qtab; ring. Qed.
Lemma apply_v_inv : forall q v i, unitq q -> (i < 3)%nat -> apply_v (oinv q) (apply_v q v) i = v i.
Proof.
  intros q v i H Hi. rewrite <- apply_v_mul by exact Hi. unfold oinv. rewrite qmul_conj_l by exact H. cases3 i Hi; qtab; ring.
Qed.
Lemma apply_v_dot : forall q v w, unitq q -> ndot (apply_v q v) (apply_v q w) = ndot v w.
Proof.
  intros [a b c d] v w H. unfold unitq in H. cbn [q0 q1 q2 q3] in H. assert (A : a * a = 1 - b * b - c * c - d * d) by lra. clear H.
  qtab. ring [A].
Qed.
Lemma apply_v_cross : forall q v w i, unitq q -> (i < 3)%nat ->
  ncross (apply_v q v) (apply_v q w) i = apply_v q (ncross v w) i.
Proof.
  intros [a b c d] v w i H Hi. unfold unitq in H. cbn [q0 q1 q2 q3] in H. assert (A : a * a = 1 - b * b - c * c - d * d) by lra. clear H.
  cases3 i Hi; qtab; ring [A].
Qed.
(** equal matrices: the quaternions agree up to sign *)
Lemma same_matrix : forall a b, unitq a -> unitq b -> meq3 (t2 (to_matrix a)) (t2 (to_matrix b)) -> a = b \/ a = qopp b.
Proof.
  intros [a0 a1 a2 a3] [b0 b1 b2 b3] Ha Hb M. unfold unitq in *. cbn [q0 q1 q2 q3] in *.
  pose proof (M 0 0 ltac:(lia) ltac:(lia))%nat as M00. pose proof (M 0 1 ltac:(lia) ltac:(lia))%nat as M01.
  pose proof (M 0 2 ltac:(lia) ltac:(lia))%nat as M02. pose proof (M 1 0 ltac:(lia) ltac:(lia))%nat as M10.
  pose proof (M 1 1 ltac:(lia) ltac:(lia))%nat as M11. pose proof (M 1 2 ltac:(lia) ltac:(lia))%nat as M12.
  pose proof (M 2 0 ltac:(lia) ltac:(lia))%nat as M20. pose proof (M 2 1 ltac:(lia) ltac:(lia))%nat as M21.
  pose proof (M 2 2 ltac:(lia) ltac:(lia))%nat as M22. clear M. revert M00 M01 M02 M10 M11 M12 M20 M21 M22. qtab. intros.
  (* all products of two components agree *)
  assert (E00 : a0 * a0 = b0 * b0) by lra. assert (E11 : a1 * a1 = b1 * b1) by lra.
  assert (E22 : a2 * a2 = b2 * b2) by lra. assert (E33 : a3 * a3 = b3 * b3) by lra.
  assert (E01 : a0 * a1 = b0 * b1) by lra. assert (E02 : a0 * a2 = b0 * b2) by lra. assert (E03 : a0 * a3 = b0 * b3) by lra.
  assert (E12 : a1 * a2 = b1 * b2) by lra. assert (E13 : a1 * a3 = b1 * b3) by lra. assert (E23 : a2 * a3 = b2 * b3) by lra.
  (* (a.b)^2 = 1, and a = (a.b) b *)
  set (s := a0 * b0 + a1 * b1 + a2 * b2 + a3 * b3).
  assert (S0 : a0 = s * b0). { unfold s. transitivity (a0 * (b0*b0+b1*b1+b2*b2+b3*b3)); [rewrite Hb; ring|].
    rewrite <- E00, <- E11, <- E22, <- E33.
    replace ((a0 * b0 + a1 * b1 + a2 * b2 + a3 * b3) * b0) with (a0 * (b0 * b0) + a1 * (b0 * b1) + a2 * (b0 * b2) + a3 * (b0 * b3)) by ring.
    rewrite <- E00, <- E01, <- E02, <- E03. ring. }
  assert (S1 : a1 = s * b1). { unfold s. transitivity (a1 * (b0*b0+b1*b1+b2*b2+b3*b3)); [rewrite Hb; ring|].
    rewrite <- E00, <- E11, <- E22, <- E33.
    replace ((a0 * b0 + a1 * b1 + a2 * b2 + a3 * b3) * b1) with (a0 * (b0 * b1) + a1 * (b1 * b1) + a2 * (b1 * b2) + a3 * (b1 * b3)) by ring.
    rewrite <- E11, <- E01, <- E12, <- E13. ring. }
  assert (S2 : a2 = s * b2). { unfold s. transitivity (a2 * (b0*b0+b1*b1+b2*b2+b3*b3)); [rewrite Hb; ring|].
    rewrite <- E00, <- E11, <- E22, <- E33.
    replace ((a0 * b0 + a1 * b1 + a2 * b2 + a3 * b3) * b2) with (a0 * (b0 * b2) + a1 * (b1 * b2) + a2 * (b2 * b2) + a3 * (b2 * b3)) by ring.
    rewrite <- E22, <- E02, <- E12, <- E23. ring. }
  assert (S3 : a3 = s * b3). { unfold s. transitivity (a3 * (b0*b0+b1*b1+b2*b2+b3*b3)); [rewrite Hb; ring|].
    rewrite <- E00, <- E11, <- E22, <- E33.
    replace ((a0 * b0 + a1 * b1 + a2 * b2 + a3 * b3) * b3) with (a0 * (b0 * b3) + a1 * (b1 * b3) + a2 * (b2 * b3) + a3 * (b3 * b3)) by ring.
    rewrite <- E33, <- E03, <- E13, <- E23. ring. }
  assert (Q : s * s = 1).
  { assert (X : s * s * (b0*b0+b1*b1+b2*b2+b3*b3) = 1).
    { replace (s * s * (b0*b0+b1*b1+b2*b2+b3*b3)) with ((s*b0)*(s*b0)+(s*b1)*(s*b1)+(s*b2)*(s*b2)+(s*b3)*(s*b3)) by ring.
      rewrite <- S0, <- S1, <- S2, <- S3. exact Ha. }
    rewrite Hb in X. lra. }
  assert (D : s = 1 \/ s = -1) by (destruct (Rle_dec 0 s); [left|right]; nra).
  clearbody s. destruct D as [-> | ->]; [left|right]; apply quat_ext; cbn [qopp q0 q1 q2 q3]; lra.
Qed.

(** ** From a rotation matrix *)
Ltac rot_eqs M H D :=
  let e i j := pose proof (H i j ltac:(lia) ltac:(lia)) in
  e 0%nat 0%nat; e 0%nat 1%nat; e 0%nat 2%nat; e 1%nat 1%nat; e 1%nat 2%nat; e 2%nat 2%nat.

(** the cofactors of a rotation matrix are its entries, and its columns are orthonormal *)
Lemma rot_cof : forall a b c d e f g h k : R,
  a*a+b*b+c*c = 1 -> d*d+e*e+f*f = 1 -> g*g+h*h+k*k = 1 -> a*d+b*e+c*f = 0 -> a*g+b*h+c*k = 0 -> d*g+e*h+f*k = 0 ->
  a*(e*k-f*h) - b*(d*k-f*g) + c*(d*h-e*g) = 1 ->
  (a = e*k-f*h /\ b = f*g-d*k /\ c = d*h-e*g) /\
  (d = c*h-b*k /\ e = a*k-c*g /\ f = b*g-a*h) /\
  (g = b*f-c*e /\ h = c*d-a*f /\ k = a*e-b*d).
Proof.
  intros a b c d e f g h k R1 R2 R3 O12 O13 O23 D.
  (* |r1 - r2 x r3|^2 = |r1|^2 - 2 det + |r2 x r3|^2 = 0 *)
  assert (C1 : (a-(e*k-f*h))*(a-(e*k-f*h)) + (b-(f*g-d*k))*(b-(f*g-d*k)) + (c-(d*h-e*g))*(c-(d*h-e*g)) = 0).
  { transitivity ((a*a+b*b+c*c) - 2 * (a*(e*k-f*h) - b*(d*k-f*g) + c*(d*h-e*g)) + ((d*d+e*e+f*f)*(g*g+h*h+k*k) - (d*g+e*h+f*k)*(d*g+e*h+f*k))); [ring|].
    rewrite R1, R2, R3, O23, D. ring. }
  assert (C2 : (d-(c*h-b*k))*(d-(c*h-b*k)) + (e-(a*k-c*g))*(e-(a*k-c*g)) + (f-(b*g-a*h))*(f-(b*g-a*h)) = 0).
  { transitivity ((d*d+e*e+f*f) - 2 * (a*(e*k-f*h) - b*(d*k-f*g) + c*(d*h-e*g)) + ((a*a+b*b+c*c)*(g*g+h*h+k*k) - (a*g+b*h+c*k)*(a*g+b*h+c*k))); [ring|].
    rewrite R1, R2, R3, O13, D. ring. }
  assert (C3 : (g-(b*f-c*e))*(g-(b*f-c*e)) + (h-(c*d-a*f))*(h-(c*d-a*f)) + (k-(a*e-b*d))*(k-(a*e-b*d)) = 0).
  { transitivity ((g*g+h*h+k*k) - 2 * (a*(e*k-f*h) - b*(d*k-f*g) + c*(d*h-e*g)) + ((d*d+e*e+f*f)*(a*a+b*b+c*c) - (a*d+b*e+c*f)*(a*d+b*e+c*f))); [ring|].
    rewrite R1, R2, R3, O12, D. ring. }
  assert (Z : forall x y z, x*x+y*y+z*z = 0 -> x = 0 /\ y = 0 /\ z = 0).
  { intros x y z E. repeat split; nra. }
  apply Z in C1. apply Z in C2. apply Z in C3. lra.
Qed.
Lemma rot_cols : forall a b c d e f g h k : R,
  a*a+b*b+c*c = 1 -> d*d+e*e+f*f = 1 -> g*g+h*h+k*k = 1 -> a*d+b*e+c*f = 0 -> a*g+b*h+c*k = 0 -> d*g+e*h+f*k = 0 ->
  a*(e*k-f*h) - b*(d*k-f*g) + c*(d*h-e*g) = 1 ->
  a*a+d*d+g*g = 1 /\ b*b+e*e+h*h = 1 /\ c*c+f*f+k*k = 1 /\ a*b+d*e+g*h = 0 /\ a*c+d*f+g*k = 0 /\ b*c+e*f+h*k = 0.
Proof.
  intros a b c d e f g h k R1 R2 R3 O12 O13 O23 D.
  destruct (rot_cof a b c d e f g h k R1 R2 R3 O12 O13 O23 D) as [[A [B C]] [[D' [E F]] [G [H K]]]].
  (* entry times cofactor expansions along columns *)
  assert (X : a*(e*k-f*h) + d*(c*h-b*k) + g*(b*f-c*e) = 1) by lra.
  assert (Y : b*(f*g-d*k) + e*(a*k-c*g) + h*(c*d-a*f) = 1) by lra.
  assert (W : c*(d*h-e*g) + f*(b*g-a*h) + k*(a*e-b*d) = 1) by lra.
  rewrite <- A, <- D', <- G in X. rewrite <- B, <- E, <- H in Y. rewrite <- C, <- F, <- K in W.
  repeat split; try assumption.
  - transitivity ((e*k-f*h)*b + (c*h-b*k)*e + (b*f-c*e)*h); [rewrite <- A, <- D', <- G; ring|ring].
  - transitivity ((e*k-f*h)*c + (c*h-b*k)*f + (b*f-c*e)*k); [rewrite <- A, <- D', <- G; ring|ring].
  - transitivity ((f*g-d*k)*c + (a*k-c*g)*f + (c*d-a*f)*k); [rewrite <- B, <- E, <- H; ring|ring].
Qed.

