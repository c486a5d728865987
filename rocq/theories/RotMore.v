(** Hopf and hyperspherical angles, frames, distance, exponentials and logarithms, rotations taking
    one vector to another (src/math/rotations.cxx). *)
From Coq Require Import String ZArith.
From Verif Require Import Base.
From Verif Require Import Diff.
From Verif Require Import NemlMathModel.
From Verif Require Import NemlMathSpec.
From Verif Require Import NemlMathProofs.
From Verif Require Import RotModel.
From Verif Require Import RotSpec.
From Verif Require Import RotProofs.
From Verif Require Import RotMatrix.
From Verif Require Import RotConv.
From Verif Require Import RotAngles.

(** ** Hopf and hyperspherical angles *)
Lemma hopf_unit : forall a b c u q, setHopf a b c u = Some q -> unitq q.
Proof.
  intros a b c u q E. unfold setHopf in E. destruct (convert_angle a u) as [al|]; [|discriminate].
  destruct (convert_angle b u) as [be|]; [|discriminate]. destruct (convert_angle c u) as [ga|]; [|discriminate]. injection E as <-.
  unfold unitq. cbn [q0 q1 q2 q3]. pose proof (sc1 (be / 2)) as S1. pose proof (sc1 (ga / 2)) as S2. pose proof (sc1 (al + ga / 2)) as S3.
  ring [S1 S2 S3].
Qed.
Lemma hyper_unit : forall a b c u q, setHyperspherical a b c u = Some q -> unitq q.
Proof.
  intros a b c u q E. unfold setHyperspherical in E. destruct (convert_angle a u) as [al|]; [|discriminate].
  destruct (convert_angle b u) as [be|]; [|discriminate]. destruct (convert_angle c u) as [ga|]; [|discriminate]. injection E as <-.
  unfold unitq. cbn [q0 q1 q2 q3]. pose proof (sc1 al) as S1. pose proof (sc1 be) as S2. pose proof (sc1 ga) as S3.
  ring [S1 S2 S3].
Qed.
Lemma polar : forall x y, sqrt (x * x + y * y) * cos (atan2 y x) = x /\ sqrt (x * x + y * y) * sin (atan2 y x) = y.
Proof.
  intros x y. destruct (Req_EM_T (x * x + y * y) 0) as [Z|N].
  - destruct (two_sq x y Z) as [-> ->]. rewrite Z, sqrt_0. split; ring.
  - destruct (atan2_spec y x N) as [-> ->]. assert (0 < sqrt (x * x + y * y)) by (apply sqrt_lt_R0; nra). split; field; lra.
Qed.
Lemma cos_asin_sqrt : forall r, 0 <= r <= 1 -> cos (asin (sqrt r)) = sqrt (1 - r).
Proof.
  intros r H. assert (S : 0 <= sqrt r <= 1). { split; [apply sqrt_pos|]. rewrite <- sqrt_1. apply sqrt_le_1; lra. }
  rewrite cos_asin by lra. f_equal. unfold Rsqr. rewrite sqrt_sqrt by lra. reflexivity.
Qed.
Lemma to_hopf_sound : forall q u a b c, unitq q -> to_hopf q u = Some (a, b, c) -> setHopf a b c u = Some q.
Proof.
  intros [x1 x2 x3 x4] u a b c H E. unfold unitq in H. unfold to_hopf in E. cbn [q0 q1 q2 q3] in *. cbv zeta in E.
  set (ga := atan2 x2 x1) in *. set (r := x3 * x3 + x4 * x4) in *.
  destruct (cast_angle (atan2 x4 x3 - 2 * ga / 2) u) as [xa|] eqn:Ca; [|discriminate].
  destruct (cast_angle (2 * asin (sqrt r)) u) as [xb|] eqn:Cb; [|discriminate].
  destruct (cast_angle (2 * ga) u) as [xc|] eqn:Cc; [|discriminate]. injection E as <- <- <-.
  unfold setHopf. rewrite (convert_cast _ _ _ Ca), (convert_cast _ _ _ Cb), (convert_cast _ _ _ Cc).
  replace (2 * asin (sqrt r) / 2) with (asin (sqrt r)) by field. replace (2 * ga / 2) with ga by field.
  replace (atan2 x4 x3 - ga + ga) with (atan2 x4 x3) by ring.
  assert (Hr : 0 <= r <= 1). { unfold r. split; [nra|]. assert (0 <= x1 * x1 + x2 * x2) by nra. lra. }
  assert (S : -1 <= sqrt r <= 1). { pose proof (sqrt_pos r). split; [lra|]. rewrite <- sqrt_1. apply sqrt_le_1; lra. }
  rewrite cos_asin_sqrt by exact Hr. rewrite sin_asin by exact S.
  replace (1 - r) with (x1 * x1 + x2 * x2) by (unfold r; lra).
  destruct (polar x1 x2) as [P1 P2]. destruct (polar x3 x4) as [P3 P4]. fold ga in P1, P2. fold r in P3, P4.
  rewrite P1, P2, P3, P4. reflexivity.
Qed.
Lemma sin_acos_ratio : forall x n m, 0 < n -> 0 <= m -> n * n = x * x + m * m -> sin (acos (x / n)) = m / n /\ cos (acos (x / n)) = x / n.
Proof.
  intros x n m Hn Hm E.
  assert (Rg : -1 <= x / n <= 1).
  { assert (Q : (x / n) * (x / n) <= 1). { apply (Rmult_le_reg_r (n * n)); [nra|]. replace (x / n * (x / n) * (n * n)) with (x * x) by (field; lra). nra. }
    nra. }
  split; [|apply cos_acos; exact Rg]. rewrite sin_acos by exact Rg. apply sqrt_lem_1.
  - unfold Rsqr. nra.
  - unfold Rdiv. apply Rmult_le_pos; [exact Hm|]. left. apply Rinv_0_lt_compat. exact Hn.
  - unfold Rsqr. apply (Rmult_eq_reg_r (n * n)); [|nra]. transitivity (m * m); [field; lra|]. transitivity (n * n - x * x); [lra|field; lra].
Qed.
Lemma to_hyper_sound : forall q u a b c, unitq q -> to_hyperspherical q u = Some (a, b, c) -> setHyperspherical a b c u = Some q.
Proof.
  intros [x1 x2 x3 x4] u a b c H E. unfold unitq in H. unfold to_hyperspherical in E. cbn [q0 q1 q2 q3] in *. cbv zeta in E.
  replace (x4 * x4 + x3 * x3 + x2 * x2 + x1 * x1) with 1 in E by lra. rewrite sqrt_1 in E.
  set (n2 := sqrt (x4 * x4 + x3 * x3 + x2 * x2)) in *. set (n3 := sqrt (x4 * x4 + x3 * x3)) in *.
  destruct (Req_EM_T n3 0) as [|N3]; [discriminate|].
  assert (Q2 : n2 * n2 = x4 * x4 + x3 * x3 + x2 * x2) by (apply sqrt_sqrt; nra).
  assert (Q3 : n3 * n3 = x4 * x4 + x3 * x3) by (apply sqrt_sqrt; nra).
  assert (P3' : 0 <= n3) by apply sqrt_pos. assert (P3 : 0 < n3) by lra.
  assert (P2' : 0 <= n2) by apply sqrt_pos. assert (P2 : 0 < n2). { assert (n2 <> 0) by (intros Z; rewrite Z in Q2; nra). lra. }
  clearbody n2 n3.
  destruct (cast_angle (acos (x1 / 1)) u) as [xa|] eqn:Ca; [|discriminate].
  destruct (cast_angle (acos (x2 / n2)) u) as [xb|] eqn:Cb; [|discriminate].
  destruct (cast_angle (if Rle_dec 0 x4 then acos (x3 / n3) else - acos (x3 / n3)) u) as [xc|] eqn:Cc; [|discriminate].
  injection E as <- <- <-.
  unfold setHyperspherical. rewrite (convert_cast _ _ _ Ca), (convert_cast _ _ _ Cb), (convert_cast _ _ _ Cc).
  destruct (sin_acos_ratio x1 1 n2 ltac:(lra) ltac:(lra) ltac:(lra)) as [-> ->].
  destruct (sin_acos_ratio x2 n2 n3 ltac:(lra) ltac:(lra) ltac:(lra)) as [-> ->].
  destruct (Rle_dec 0 x4) as [L|L].
  - destruct (sin_acos_ratio x3 n3 x4 ltac:(lra) ltac:(lra) ltac:(lra)) as [-> ->]. f_equal. apply quat_ext; cbn [q0 q1 q2 q3]; field; lra.
  - rewrite cos_neg, sin_neg. destruct (sin_acos_ratio x3 n3 (- x4) ltac:(lra) ltac:(lra) ltac:(lra)) as [-> ->]. f_equal. apply quat_ext; cbn [q0 q1 q2 q3]; field; lra.
Qed.
Lemma hyper_identity : to_hyperspherical qone "radians" = None.
Proof.
  unfold to_hyperspherical, qone. cbn [q0 q1 q2 q3]. cbv zeta. replace (sqrt (0 * 0 + 0 * 0)) with 0 by (replace (0 * 0 + 0 * 0) with 0 by ring; rewrite sqrt_0; reflexivity).
  destruct (Req_EM_T 0 0) as [_|N]; [reflexivity|exfalso; apply N; reflexivity].
Qed.

(** ** Frames *)
Lemma vectors_sound : forall x y, unit_vec x -> unit_vec y -> ndot x y = 0 ->
  exists q, setVectors x y = Some q /\ unitq q /\
  forall i, (i < 3)%nat -> t2 (to_matrix q) i 0 = x i /\ t2 (to_matrix q) i 1 = y i /\ t2 (to_matrix q) i 2 = ncross x y i.
Proof.
  intros x y Hx Hy O. unfold unit_vec, ndot in *. cbn [rsum] in *. unfold setVectors.
  destruct (Rlt_dec (1 / 10 ^ 16) (Rabs (dot3 x y))) as [L|L].
  { exfalso. replace (dot3 x y) with 0 in L by (unfold dot3; lra). rewrite Rabs_R0 in L. assert (0 < 1 / 10 ^ 16) by (apply Rdiv_lt_0_compat; [lra|apply pow_lt; lra]). lra. }
  eexists. split; [reflexivity|]. cbv zeta.
  set (x0 := x 0%nat) in *. set (x1 := x 1%nat) in *. set (x2 := x 2%nat) in *. set (y0 := y 0%nat) in *. set (y1 := y 1%nat) in *. set (y2 := y 2%nat) in *.
  set (M := fun k : nat => _). 
  assert (RT : is_rot (t2 M)).
  { assert (A : x0 * x0 = 1 - x1 * x1 - x2 * x2) by lra. assert (B : y0 * y0 = 1 - y1 * y1 - y2 * y2) by lra. assert (D : x0 * y0 = - (x1 * y1) - x2 * y2) by lra.
    (* columns are orthonormal with determinant one, hence so are the rows *)
    set (z0 := x1 * y2 - x2 * y1). set (z1 := x2 * y0 - x0 * y2). set (z2 := x0 * y1 - x1 * y0).
    assert (Z : z0*z0+z1*z1+z2*z2 = 1). { transitivity ((x0*x0+x1*x1+x2*x2)*(y0*y0+y1*y1+y2*y2) - (x0*y0+x1*y1+x2*y2)*(x0*y0+x1*y1+x2*y2)); [unfold z0, z1, z2; ring|]. replace (x0*x0+x1*x1+x2*x2) with 1 by lra. replace (y0*y0+y1*y1+y2*y2) with 1 by lra. replace (x0*y0+x1*y1+x2*y2) with 0 by lra. ring. }
    assert (XZ : x0*z0+x1*z1+x2*z2 = 0) by (unfold z0, z1, z2; ring). assert (YZ : y0*z0+y1*z1+y2*z2 = 0) by (unfold z0, z1, z2; ring).
    assert (DT : x0*(y1*z2-y2*z1) - x1*(y0*z2-y2*z0) + x2*(y0*z1-y1*z0) = 1). { transitivity (z0*z0+z1*z1+z2*z2); [unfold z0, z1, z2; ring|exact Z]. }
    destruct (rot_cols x0 x1 x2 y0 y1 y2 z0 z1 z2 ltac:(lra) ltac:(lra) Z ltac:(lra) XZ YZ DT) as [C1 [C2 [C3 [P12 [P13 P23]]]]].
    split.
    - intros i j Hi Hj. cases3 i Hi; cases3 j Hj; unfold M; qtab; fold x0 x1 x2 y0 y1 y2; fold z0 z1 z2; lra.
    - unfold M. qtab. fold x0 x1 x2 y0 y1 y2. fold z0 z1 z2. lra. }
  destruct (setMatrix_rot M RT) as [U W]. split; [exact U|]. intros i Hi.
  rewrite (W i 0%nat Hi ltac:(lia)), (W i 1%nat Hi ltac:(lia)), (W i 2%nat Hi ltac:(lia)). unfold M.
  cases3 i Hi; qtab; repeat split; reflexivity.
Qed.
Lemma vectors_not_unit : exists x y q, setVectors x y = Some q /\ ndot x x = 4 /\ ~ unitq q.
Proof.
  exists (fun k => match k with 0%nat => 2 | _ => 0 end), (fun k => match k with 1%nat => 1 | _ => 0 end). 
  unfold setVectors. destruct (Rlt_dec _ _) as [L|L].
  { exfalso. revert L. unfold dot3. replace (2 * 0 + 0 * 1 + 0 * 0) with 0 by ring. rewrite Rabs_R0. intros L. assert (0 < 1 / 10 ^ 16) by (apply Rdiv_lt_0_compat; [lra|apply pow_lt; lra]). lra. }
  eexists. split; [reflexivity|]. split; [unfold ndot; cbn [rsum]; ring|].
  unfold setMatrix. qtab. destruct (Rlt_dec _ _) as [T|T]; [|exfalso; apply T; lra].
  cbn [q0 q1 q2 q3]. intros E.
  assert (S : sqrt (1 + (2 + 1 + (2 * 1 - 0 * 0))) * sqrt (1 + (2 + 1 + (2 * 1 - 0 * 0))) = 6) by (rewrite sqrt_sqrt; lra).
  set (s := sqrt _) in *. set (u := (_ - _) / (s * 2)) in E. set (v := (0 * 0 - 2 * 0 - 0) / (s * 2)) in E. set (w := (0 - 0) / (s * 2)) in E.
  pose proof (Rle_0_sqr u). pose proof (Rle_0_sqr v). pose proof (Rle_0_sqr w). unfold Rsqr in *. nra.
Qed.

(** ** Default and zero orientations *)
Lemma default_not_one : qdefault <> qone /\ unitq qdefault /\ apply_v qdefault (fun k => match k with 0%nat => 1 | _ => 0 end) 0%nat = -1.
Proof.
  split; [|split]. - intros E. apply (f_equal q0) in E. cbn in E. lra. - unfold qdefault; qtab; ring. - unfold qdefault; qtab; ring.
Qed.
Lemma random_unit : forall u0 u1 u2, 0 <= u0 <= 1 -> unitq (random_quat u0 u1 u2).
Proof.
  intros u0 u1 u2 H. unfold random_quat, unitq. cbn [q0 q1 q2 q3]. pose proof (sc1 (2 * PI * u1)) as S1. pose proof (sc1 (2 * PI * u2)) as S2.
  assert (A : sqrt (1 - u0) * sqrt (1 - u0) = 1 - u0) by (apply sqrt_sqrt; lra). assert (B : sqrt u0 * sqrt u0 = u0) by (apply sqrt_sqrt; lra).
  ring [S1 S2 A B].
Qed.

(** ** Distance *)
Lemma qdot_le : forall a b, unitq a -> unitq b -> Rabs (qdot a b) <= 1.
Proof.
  intros [a0 a1 a2 a3] [b0 b1 b2 b3] Ha Hb. unfold unitq, qdot in *. cbn [q0 q1 q2 q3] in *.
  pose proof (Rle_0_sqr (a0-b0)). pose proof (Rle_0_sqr (a1-b1)). pose proof (Rle_0_sqr (a2-b2)). pose proof (Rle_0_sqr (a3-b3)).
  pose proof (Rle_0_sqr (a0+b0)). pose proof (Rle_0_sqr (a1+b1)). pose proof (Rle_0_sqr (a2+b2)). pose proof (Rle_0_sqr (a3+b3)).
  unfold Rsqr in *. apply Rabs_le. split; lra.
Qed.
Lemma distance_unit : forall a b, unitq a -> unitq b -> distance a b = acos (Rabs (qdot a b)).
Proof. intros a b Ha Hb. unfold distance. cbv zeta. pose proof (qdot_le a b Ha Hb). destruct (Rlt_dec 1 (Rabs (qdot a b))); [lra|reflexivity]. Qed.
Lemma distance_sym : forall a b, distance a b = distance b a.
Proof. intros a b. unfold distance. replace (qdot b a) with (qdot a b) by (unfold qdot; ring). reflexivity. Qed.
Lemma qdot_opp : forall a b, qdot (qopp a) b = - qdot a b.
Proof. intros a b. dq a; dq b. qtab. ring. Qed.
Lemma distance_opp : forall a b, distance (qopp a) b = distance a b.
Proof. intros. unfold distance. rewrite qdot_opp, Rabs_Ropp. reflexivity. Qed.
Lemma distance_left : forall c a b, unitq c -> distance (qmul c a) (qmul c b) = distance a b.
Proof.
  intros c a b H. unfold distance. assert (E : qdot (qmul c a) (qmul c b) = qdot a b).
  { transitivity ((q0 c * q0 c + q1 c * q1 c + q2 c * q2 c + q3 c * q3 c) * qdot a b); [dq a; dq b; dq c; qtab; ring|]. unfold unitq in H. rewrite H. ring. }
  rewrite E. reflexivity.
Qed.
Lemma distance_right : forall c a b, unitq c -> distance (qmul a c) (qmul b c) = distance a b.
Proof.
  intros c a b H. unfold distance. assert (E : qdot (qmul a c) (qmul b c) = qdot a b).
  { transitivity ((q0 c * q0 c + q1 c * q1 c + q2 c * q2 c + q3 c * q3 c) * qdot a b); [dq a; dq b; dq c; qtab; ring|]. unfold unitq in H. rewrite H. ring. }
  rewrite E. reflexivity.
Qed.
Lemma distance_range : forall a b, unitq a -> unitq b -> 0 <= distance a b <= PI / 2.
Proof.
  intros a b Ha Hb. rewrite distance_unit by assumption. pose proof (qdot_le a b Ha Hb) as L. pose proof (Rabs_pos (qdot a b)) as P.
  split; [apply acos_bound|]. pose proof (acos_bound (Rabs (qdot a b))) as B. destruct (Rle_dec (acos (Rabs (qdot a b))) (PI / 2)) as [|X]; [assumption|].
  exfalso. pose proof (cos_lt_0 (acos (Rabs (qdot a b))) ltac:(lra) ltac:(lra)) as Q. rewrite cos_acos in Q by lra. lra.
Qed.
Lemma acos_1' : acos 1 = 0.
Proof. rewrite <- cos_0. apply acos_cos. pose proof PI_RGT_0. lra. Qed.
Lemma distance_zero : forall a b, unitq a -> unitq b -> (distance a b = 0 <-> a = b \/ a = qopp b).
Proof.
  intros a b Ha Hb. rewrite distance_unit by assumption. split.
  - intros E. pose proof (qdot_le a b Ha Hb) as L. pose proof (Rabs_pos (qdot a b)) as P.
    assert (C : Rabs (qdot a b) = 1). { rewrite <- cos_0. rewrite <- E. symmetry. apply cos_acos. lra. }
    assert (D : qdot a b = 1 \/ qdot a b = -1). { unfold Rabs in C. destruct (Rcase_abs (qdot a b)); lra. }
    destruct a as [a0 a1 a2 a3], b as [b0 b1 b2 b3]. unfold unitq, qdot in *. cbn [q0 q1 q2 q3] in *. clear L P C E.
    assert (Z4 : forall w x y z, w*w+x*x+y*y+z*z = 0 -> w = 0 /\ x = 0 /\ y = 0 /\ z = 0) by (intros w x y z Z; repeat split; nra).
    destruct D as [D|D].
    + left. destruct (Z4 (a0-b0) (a1-b1) (a2-b2) (a3-b3) ltac:(lra)) as [E0 [E1 [E2 E3]]]. apply quat_ext; cbn [q0 q1 q2 q3]; lra.
    + right. destruct (Z4 (a0+b0) (a1+b1) (a2+b2) (a3+b3) ltac:(lra)) as [E0 [E1 [E2 E3]]]. apply quat_ext; cbn [qopp q0 q1 q2 q3]; lra.
  - assert (S : qdot b b = 1) by (unfold unitq in Hb; unfold qdot; exact Hb).
    intros [-> | ->]; [|rewrite qdot_opp, Rabs_Ropp]; rewrite S, Rabs_R1; apply acos_1'.
Qed.
(** the distance is half the angle of the rotation taking one orientation to the other *)
Lemma distance_angle : forall a b n t q, unitq a -> unitq b -> unit_vec n -> 0 <= t <= PI -> setAxisAngle n t "radians" = Some q ->
  b = qmul q a -> distance a b = t / 2.
Proof.
  intros a b n t q Ha Hb Hn Ht E ->. rewrite distance_unit by assumption.
  unfold setAxisAngle in E. rewrite conv_rad in E. injection E as <-.
  set (c := cos (t / 2)). set (s := sin (t / 2)).
  assert (X : qdot a (qmul (Quat c (s * n 0%nat) (s * n 1%nat) (s * n 2%nat)) a) = c).
  { transitivity (c * (q0 a * q0 a + q1 a * q1 a + q2 a * q2 a + q3 a * q3 a)); [dq a; qtab; ring|]. unfold unitq in Ha. rewrite Ha. ring. }
  rewrite X. unfold c. rewrite Rabs_right; [apply acos_cos; lra|]. apply Rle_ge. apply cos_ge_0; lra.
Qed.
Lemma cs4 : forall a0 a1 a2 a3 b0 b1 b2 b3 : R,
  (a0*b0+a1*b1+a2*b2+a3*b3)*(a0*b0+a1*b1+a2*b2+a3*b3) <= (a0*a0+a1*a1+a2*a2+a3*a3)*(b0*b0+b1*b1+b2*b2+b3*b3).
Proof.
  intros. assert (E : (a0*a0+a1*a1+a2*a2+a3*a3)*(b0*b0+b1*b1+b2*b2+b3*b3) - (a0*b0+a1*b1+a2*b2+a3*b3)*(a0*b0+a1*b1+a2*b2+a3*b3) =
    (a0*b1-a1*b0)² + (a0*b2-a2*b0)² + (a0*b3-a3*b0)² + (a1*b2-a2*b1)² + (a1*b3-a3*b1)² + (a2*b3-a3*b2)²) by (unfold Rsqr; ring).
  pose proof (Rle_0_sqr (a0*b1-a1*b0)). pose proof (Rle_0_sqr (a0*b2-a2*b0)). pose proof (Rle_0_sqr (a0*b3-a3*b0)).
  pose proof (Rle_0_sqr (a1*b2-a2*b1)). pose proof (Rle_0_sqr (a1*b3-a3*b1)). pose proof (Rle_0_sqr (a2*b3-a3*b2)). lra.
Qed.
Lemma sq_le_1 : forall x, Rabs x <= 1 -> 0 <= 1 - x * x.
Proof. intros x H. apply Rabs_le_between in H. nra. Qed.
Lemma triangle_core : forall a b c, unitq a -> unitq b -> unitq c ->
  qdot a b * qdot b c - sqrt (1 - qdot a b * qdot a b) * sqrt (1 - qdot b c * qdot b c) <= qdot a c.
Proof.
  intros a b c Ha Hb Hc. 
  pose proof (sq_le_1 _ (qdot_le a b Ha Hb)) as X. pose proof (sq_le_1 _ (qdot_le b c Hb Hc)) as Y.
  set (x := qdot a b) in *. set (y := qdot b c) in *. set (z := qdot a c).
  assert (G : (z - x * y) * (z - x * y) <= (1 - x * x) * (1 - y * y)).
  { destruct a as [a0 a1 a2 a3], b as [b0 b1 b2 b3], c as [c0 c1 c2 c3]. unfold unitq, qdot in *. cbn [q0 q1 q2 q3] in *.
    pose proof (cs4 (a0-x*b0) (a1-x*b1) (a2-x*b2) (a3-x*b3) (c0-y*b0) (c1-y*b1) (c2-y*b2) (c3-y*b3)) as C.
    replace ((a0 - x * b0) * (c0 - y * b0) + (a1 - x * b1) * (c1 - y * b1) + (a2 - x * b2) * (c2 - y * b2) + (a3 - x * b3) * (c3 - y * b3))
      with (z - x * y) in C.
    2:{ transitivity ((a0*c0+a1*c1+a2*c2+a3*c3) - y * (a0*b0+a1*b1+a2*b2+a3*b3) - x * (b0*c0+b1*c1+b2*c2+b3*c3) + x * y * (b0*b0+b1*b1+b2*b2+b3*b3)); [rewrite Hb; fold x y z; ring|ring]. }
    replace ((a0 - x * b0) * (a0 - x * b0) + (a1 - x * b1) * (a1 - x * b1) + (a2 - x * b2) * (a2 - x * b2) + (a3 - x * b3) * (a3 - x * b3))
      with (1 - x * x) in C.
    2:{ transitivity ((a0*a0+a1*a1+a2*a2+a3*a3) - 2 * x * (a0*b0+a1*b1+a2*b2+a3*b3) + x * x * (b0*b0+b1*b1+b2*b2+b3*b3)); [rewrite Ha, Hb; fold x; ring|ring]. }
    replace ((c0 - y * b0) * (c0 - y * b0) + (c1 - y * b1) * (c1 - y * b1) + (c2 - y * b2) * (c2 - y * b2) + (c3 - y * b3) * (c3 - y * b3))
      with (1 - y * y) in C.
    2:{ transitivity ((c0*c0+c1*c1+c2*c2+c3*c3) - 2 * y * (b0*c0+b1*c1+b2*c2+b3*c3) + y * y * (b0*b0+b1*b1+b2*b2+b3*b3)); [rewrite Hc, Hb; fold y; ring|ring]. }
    exact C. }
  set (sx := sqrt (1 - x * x)). set (sy := sqrt (1 - y * y)).
  assert (Sx : sx * sx = 1 - x * x) by (apply sqrt_sqrt; exact X). assert (Sy : sy * sy = 1 - y * y) by (apply sqrt_sqrt; exact Y).
  assert (Px : 0 <= sx) by apply sqrt_pos. assert (Py : 0 <= sy) by apply sqrt_pos.
  rewrite <- Sx, <- Sy in G. clearbody sx sy. assert (P : 0 <= sx * sy) by (apply Rmult_le_pos; assumption).
  assert (G' : (z - x * y) * (z - x * y) <= (sx * sy) * (sx * sy)) by lra. set (p := sx * sy) in *. clearbody p.
  assert (- p <= z - x * y) by nra. lra.
Qed.
Lemma unitq_sign : forall s q, (s = 1 \/ s = -1) -> unitq q -> unitq (qsmul s q).
Proof. intros s q [-> | ->] H; dq q; revert H; qtab; intros H; lra. Qed.
Lemma distance_triangle : forall a b c, unitq a -> unitq b -> unitq c -> distance a c <= distance a b + distance b c.
Proof.
  intros a b c Ha Hb Hc.
  (* choose the signs of a and c so that a.b and b.c are not negative *)
  assert (W : forall u, unitq u -> exists s, (s = 1 \/ s = -1) /\ 0 <= qdot (qsmul s u) b /\ Rabs (qdot u b) = qdot (qsmul s u) b).
  { intros u _. destruct (Rle_dec 0 (qdot u b)) as [P|P].
    - exists 1. assert (E : qdot (qsmul 1 u) b = qdot u b) by (dq u; dq b; qtab; ring). rewrite E. repeat split; [left; reflexivity|exact P|apply Rabs_right; lra].
    - exists (-1). assert (E : qdot (qsmul (-1) u) b = - qdot u b) by (dq u; dq b; qtab; ring). rewrite E. repeat split; [right; reflexivity|lra|apply Rabs_left; lra]. }
  destruct (W a Ha) as [s [Hs [Pa Ea]]]. destruct (W c Hc) as [t [Ht [Pc Ec]]].
  pose proof (unitq_sign s a Hs Ha) as Ua. pose proof (unitq_sign t c Ht Hc) as Uc.
  pose proof (triangle_core (qsmul s a) b (qsmul t c) Ua Hb Uc) as T.
  assert (SC : qdot b (qsmul t c) = qdot (qsmul t c) b) by (unfold qdot; ring). rewrite SC in T. rewrite <- Ea, <- Ec in T.
  assert (Z : qdot (qsmul s a) (qsmul t c) <= Rabs (qdot a c)).
  { assert (E : qdot (qsmul s a) (qsmul t c) = s * t * qdot a c) by (dq a; dq c; qtab; ring). rewrite E.
    pose proof (Rle_abs (qdot a c)). pose proof (Rle_abs (- qdot a c)) as Q. rewrite Rabs_Ropp in Q. destruct Hs as [-> | ->], Ht as [-> | ->]; lra. }
  rewrite !distance_unit by assumption. replace (qdot b c) with (qdot c b) by (unfold qdot; ring).
  pose proof (qdot_le a b Ha Hb) as La. pose proof (qdot_le c b Hc Hb) as Lc. pose proof (qdot_le a c Ha Hc) as Lz.
  set (x := Rabs (qdot a b)) in *. set (y := Rabs (qdot c b)) in *. set (z := Rabs (qdot a c)) in *.
  assert (X0 : 0 <= x) by apply Rabs_pos. assert (Y0 : 0 <= y) by apply Rabs_pos. assert (Z0 : 0 <= z) by apply Rabs_pos. clearbody x y z.
  pose proof (acos_bound x) as Bx. pose proof (acos_bound y) as By. pose proof (acos_bound z) as Bz.
  destruct (Rle_dec (acos z) (acos x + acos y)) as [L|L]; [exact L|]. exfalso.
  assert (C : cos (acos z) < cos (acos x + acos y)) by (apply cos_decreasing_1; lra).
  rewrite cos_plus, !cos_acos, !sin_acos in C by lra. unfold Rsqr in C. lra.
Qed.

(** ** Exponential of a spin *)
Lemma norm3_sq : forall w, norm3 w * norm3 w = w 0%nat * w 0%nat + w 1%nat * w 1%nat + w 2%nat * w 2%nat.
Proof. intros w. unfold norm3, dot3. apply sqrt_sqrt. nra. Qed.
Lemma norm3_ndot : forall w, norm3 w = sqrt (ndot w w).
Proof. intros w. unfold norm3, dot3, ndot. cbn [rsum]. f_equal. ring. Qed.
Lemma norm3_pos : forall w, 0 <= norm3 w.
Proof. intros. apply sqrt_pos. Qed.
Lemma unit_over_norm : forall w, norm3 w <> 0 -> unit_vec (fun k => w k / norm3 w).
Proof.
  intros w N. unfold unit_vec, ndot. cbn [rsum]. pose proof (norm3_sq w) as S.
  transitivity ((w 0%nat * w 0%nat + w 1%nat * w 1%nat + w 2%nat * w 2%nat) / (norm3 w * norm3 w)); [field; exact N|]. rewrite <- S. field. exact N.
Qed.
Lemma wexp_form : forall w, norm3 w <> 0 -> Some (wexp w) = setAxisAngle (fun k => w k / norm3 w) (norm3 w) "radians".
Proof.
  intros w N. unfold wexp. cbv zeta. destruct (Req_EM_T (norm3 w) 0) as [|_]; [contradiction|].
  unfold setAxisAngle. rewrite conv_rad. f_equal. pose proof (axis_angle_unit (fun k => w k / norm3 w) (norm3 w) "radians" _ (unit_over_norm w N) eq_refl) as U.
  set (x := norm3 w) in *.
  replace (Quat (cos (x / 2)) (sin (x / 2) / x * w 0%nat) (sin (x / 2) / x * w 1%nat) (sin (x / 2) / x * w 2%nat))
    with (Quat (cos (x / 2)) (sin (x / 2) * (w 0%nat / x)) (sin (x / 2) * (w 1%nat / x)) (sin (x / 2) * (w 2%nat / x))) by (f_equal; field; exact N).
  apply normalize_id. exact U.
Qed.
Lemma wexp_unit : forall w, unitq (wexp w).
Proof.
  intros w. unfold wexp. cbv zeta. destruct (Req_EM_T (norm3 w) 0); [unfold qdefault; qtab; ring|apply normalize_unit].
Qed.
Lemma wexp_turns : forall w v i, norm3 w <> 0 -> (i < 3)%nat -> apply_v (wexp w) v i = turned (fun k => w k / norm3 w) (norm3 w) v i.
Proof. intros w v i N Hi. apply axis_angle_turns; [apply unit_over_norm; exact N|symmetry; apply wexp_form; exact N|exact Hi]. Qed.
Lemma wexp_zero : apply_v (wexp (fun _ => 0)) (fun k => match k with 0%nat => 1 | _ => 0 end) 0%nat = -1.
Proof.
  unfold wexp. cbv zeta. destruct (Req_EM_T (norm3 (fun _ : nat => 0)) 0) as [_|N].
  - unfold qdefault. qtab. ring.
  - exfalso. apply N. unfold norm3, dot3. transitivity (sqrt 0); [f_equal; ring|apply sqrt_0].
Qed.
Lemma wlog_wexp : forall w, 0 < norm3 w < 2 * PI -> exists l, wlog (wexp w) = Some l /\ forall i, (i < 3)%nat -> l i = w i.
Proof.
  intros w H. assert (N : norm3 w <> 0) by lra. pose proof (wexp_form w N) as F. unfold setAxisAngle in F. rewrite conv_rad in F. injection F as F.
  pose proof (wexp_unit w) as U. rewrite F in *. clear F. set (x := norm3 w) in *.
  assert (S : 0 < sin (x / 2)) by (apply sin_gt_0; lra).
  apply unitq_norm in U. unfold wlog. rewrite U. cbn [q0 q1 q2 q3].
  assert (V : qvnorm (Quat (cos (x / 2)) (sin (x / 2) * (w 0%nat / x)) (sin (x / 2) * (w 1%nat / x)) (sin (x / 2) * (w 2%nat / x))) = sin (x / 2)).
  { unfold qvnorm. cbn [q1 q2 q3]. pose proof (norm3_sq w) as Q. fold x in Q. apply sqrt_lem_1; [nra|lra|].
    transitivity (sin (x / 2) * sin (x / 2) * ((w 0%nat * w 0%nat + w 1%nat * w 1%nat + w 2%nat * w 2%nat) / (x * x))); [rewrite <- Q; field; exact N|field; exact N]. }
  rewrite V. destruct (Req_EM_T (sin (x / 2)) 0); [lra|]. eexists. split; [reflexivity|].
  replace (cos (x / 2) / 1) with (cos (x / 2)) by field. rewrite acos_cos by lra. intros i Hi. cases3 i Hi; field; lra.
Qed.
Lemma qvnorm_sq : forall q, qvnorm q * qvnorm q = q1 q * q1 q + q2 q * q2 q + q3 q * q3 q.
Proof. intros q. unfold qvnorm. apply sqrt_sqrt. nra. Qed.
(** a unit quaternion other than +-1 is (cos t, n sin t) with 0 < t < pi *)
Lemma unit_polar : forall q, unitq q -> qvnorm q <> 0 -> let t := acos (q0 q) in 0 < t < PI /\ cos t = q0 q /\ sin t = qvnorm q.
Proof.
  intros q U N t. pose proof (unit_q0_range q U) as RG. pose proof (qvnorm_sq q) as V. unfold unitq in U.
  assert (C : cos t = q0 q) by (apply cos_acos; exact RG).
  assert (P : 0 < qvnorm q) by (assert (0 <= qvnorm q) by apply sqrt_pos; lra).
  assert (S : sin t = qvnorm q). { unfold t. rewrite sin_acos by exact RG. apply sqrt_lem_1; unfold Rsqr; [nra|lra|lra]. }
  pose proof (acos_bound (q0 q)) as B. fold t in B. split; [|split; assumption].
  split; [destruct (Req_EM_T t 0) as [Z|]|destruct (Req_EM_T t PI) as [Z|]]; try lra; rewrite Z, ?sin_0, ?sin_PI in S; lra.
Qed.
Lemma wexp_wlog : forall q l, unitq q -> wlog q = Some l -> wexp l = q.
Proof.
  intros q l U E. unfold wlog in E. destruct (Req_EM_T (qvnorm q) 0) as [|N]; [discriminate|]. injection E as <-.
  destruct (unit_polar q U N) as [T [C S]]. set (t := acos (q0 q)) in *. pose proof (proj1 (unitq_norm q) U) as NQ.
  pose proof (qvnorm_sq q) as V. set (v := qvnorm q) in *. rewrite NQ. replace (q0 q / 1) with (q0 q) by field. fold t.
  assert (P : 0 < v) by (assert (0 <= v) by apply sqrt_pos; lra).
  set (l := fun k : nat => _). assert (L : norm3 l = 2 * t).
  { unfold norm3, dot3, l. apply sqrt_lem_1; [|lra|].
    - apply Rle_trans with (Rsqr (2 * t / v * q1 q) + Rsqr (2 * t / v * q2 q) + Rsqr (2 * t / v * q3 q)); [|unfold Rsqr; lra].
      pose proof (Rle_0_sqr (2 * t / v * q1 q)). pose proof (Rle_0_sqr (2 * t / v * q2 q)). pose proof (Rle_0_sqr (2 * t / v * q3 q)). lra.
    - transitivity ((2 * t) * (2 * t) * ((q1 q * q1 q + q2 q * q2 q + q3 q * q3 q) / (v * v))); [rewrite <- V; field; lra|field; lra]. }
  assert (NL : norm3 l <> 0) by lra. pose proof (wexp_form l NL) as F. unfold setAxisAngle in F. rewrite conv_rad in F. injection F as F. rewrite F.
  rewrite L. replace (2 * t / 2) with t by field. rewrite C, S. unfold l. dq q. cbn [q0 q1 q2 q3] in *. apply quat_ext; cbn [q0 q1 q2 q3]; field; lra.
Qed.
Lemma wlog_identity : wlog qone = None.
Proof.
  unfold wlog. destruct (Req_EM_T (qvnorm qone) 0) as [_|N]; [reflexivity|]. exfalso. apply N. unfold qvnorm, qone. cbn. transitivity (sqrt 0); [f_equal; ring|apply sqrt_0].
Qed.

(** ** Quaternion exponential, logarithm and power *)
Lemma pow_form : forall q w, unitq q -> qvnorm q <> 0 -> w <> 0 -> let t := acos (q0 q) in let s := sin (w * t) / qvnorm q in
  qpow q w = Some (Quat (cos (w * t)) (q1 q * s) (q2 q * s) (q3 q * s)).
Proof.
  intros q w U N W t s. destruct (unit_polar q U N) as [T [C S]]. fold t in T, C, S. pose proof (proj1 (unitq_norm q) U) as NQ. pose proof (qvnorm_sq q) as V.
  assert (P : 0 < qvnorm q) by (assert (0 <= qvnorm q) by apply sqrt_pos; lra).
  unfold qpow, qlog. cbv zeta. destruct (Req_EM_T (qvnorm q) 0) as [|_]; [contradiction|]. rewrite NQ. replace (q0 q / 1) with (q0 q) by field. fold t.
  unfold s. clear s. set (v := qvnorm q) in *.
  unfold qexp, qsmul. cbn [q0 q1 q2 q3].
  assert (A : qvnorm (Quat (ln 1 * w) (q1 q / v * t * w) (q2 q / v * t * w) (q3 q / v * t * w)) = Rabs (w * t)).
  { unfold qvnorm. cbn [q1 q2 q3].
    replace (q1 q / v * t * w * (q1 q / v * t * w) + q2 q / v * t * w * (q2 q / v * t * w) + q3 q / v * t * w * (q3 q / v * t * w)) with (Rsqr (w * t)).
    - apply sqrt_Rsqr_abs.
    - unfold Rsqr. symmetry. transitivity (w * t * (w * t) * ((q1 q * q1 q + q2 q * q2 q + q3 q * q3 q) / (v * v))); [field; exact N|rewrite <- V; field; exact N]. }
  rewrite A. assert (WT : w * t <> 0). { intros Z. apply Rmult_integral in Z. lra. }
  destruct (Req_EM_T (Rabs (w * t)) 0) as [Z|_]; [exfalso; revert Z; apply Rabs_no_R0; exact WT|]. f_equal.
  assert (CA : cos (Rabs (w * t)) = cos (w * t)). { unfold Rabs. destruct (Rcase_abs (w * t)); [apply cos_neg|reflexivity]. }
  assert (SA : sin (Rabs (w * t)) / Rabs (w * t) = sin (w * t) / (w * t)). { unfold Rabs. destruct (Rcase_abs (w * t)); [rewrite sin_neg; field; split; [lra|exact W]|reflexivity]. }
  rewrite CA, SA. assert (w <> 0 /\ t <> 0) by (split; [exact W|lra]). apply quat_ext; cbn [q0 q1 q2 q3]; field; tauto.
Qed.
Lemma exp_log : forall q, unitq q -> qvnorm q <> 0 -> exists l, qlog q = Some l /\ qexp l = Some q.
Proof.
  intros q U N. pose proof (pow_form q 1 U N ltac:(lra)) as F. cbv zeta in F. unfold qpow in F. destruct (qlog q) as [l|] eqn:L; [|discriminate].
  exists l. split; [reflexivity|]. assert (E : qsmul 1 l = l) by (dq l; unfold qsmul; cbn [q0 q1 q2 q3]; f_equal; ring). rewrite E in F. rewrite F.
  destruct (unit_polar q U N) as [T [C S]]. rewrite Rmult_1_l, C, S. dq q. cbn [q0 q1 q2 q3]. f_equal. apply quat_ext; cbn [q0 q1 q2 q3]; field; exact N.
Qed.
Lemma pow_one : forall q, unitq q -> qvnorm q <> 0 -> qpow q 1 = Some q.
Proof.
  intros q U N. rewrite (pow_form q 1 U N) by lra. cbv zeta. destruct (unit_polar q U N) as [T [C S]]. rewrite Rmult_1_l, C, S.
  dq q. cbn [q0 q1 q2 q3]. f_equal. apply quat_ext; cbn [q0 q1 q2 q3]; field; exact N.
Qed.
Lemma pow_add : forall q u w a b, unitq q -> u <> 0 -> w <> 0 -> u + w <> 0 -> qpow q u = Some a -> qpow q w = Some b -> qpow q (u + w) = Some (qmul a b).
Proof.
  intros q u w a b U Hu Hw Huw Ea Eb.
  assert (N : qvnorm q <> 0). { intros Z. unfold qpow, qlog in Ea. cbv zeta in Ea. destruct (Req_EM_T (qvnorm q) 0); [discriminate|contradiction]. }
  rewrite (pow_form q u U N Hu) in Ea. rewrite (pow_form q w U N Hw) in Eb. rewrite (pow_form q (u + w) U N Huw). cbv zeta in *. injection Ea as <-. injection Eb as <-. f_equal.
  set (t := acos (q0 q)). pose proof (qvnorm_sq q) as V. set (v := qvnorm q) in *.
  replace ((u + w) * t) with (u * t + w * t) by ring. rewrite cos_plus, sin_plus.
  apply quat_ext; unfold qmul; cbn [q0 q1 q2 q3]; [|field; exact N|field; exact N|field; exact N].
  transitivity (cos (u * t) * cos (w * t) - sin (u * t) * sin (w * t) * ((q1 q * q1 q + q2 q * q2 q + q3 q * q3 q) / (v * v))); [rewrite <- V; field; exact N|field; exact N].
Qed.
Lemma pow_not_unit : qpow (Quat 0 2 0 0) 2 <> Some (qmul (Quat 0 2 0 0) (Quat 0 2 0 0)).
Proof.
  intros E. unfold qpow in E. destruct (qlog (Quat 0 2 0 0)) as [l|]; [|discriminate]. unfold qexp in E. cbv zeta in E.
  destruct (Req_EM_T (qvnorm (qsmul 2 l)) 0); [discriminate|]. injection E as E _. unfold qmul in E. cbn [q0 q1 q2 q3] in E.
  pose proof (COS_bound (qvnorm (qsmul 2 l))). lra.
Qed.
Lemma pow_identity : forall w, qpow qone w = None.
Proof.
  intros w. unfold qpow, qlog. cbv zeta. destruct (Req_EM_T (qvnorm qone) 0) as [_|N]; [reflexivity|]. exfalso. apply N. unfold qvnorm, qone. cbn. transitivity (sqrt 0); [f_equal; ring|apply sqrt_0].
Qed.

(** ** The rotation taking one direction to another *)
Lemma rotate_to_sound : forall a b q i, rotate_to a b = Some q -> (i < 3)%nat ->
  unitq q /\ apply_v q (fun k => a k / norm3 a) i = b i / norm3 b.
Proof.
  intros a b q i E Hi. unfold rotate_to in E. cbv zeta in E.
  destruct (Req_EM_T (norm3 a) 0) as [|Na]; [discriminate|]. destruct (Req_EM_T (norm3 b) 0) as [|Nb]; [discriminate|].
  pose proof (unit_over_norm a Na) as Ua. pose proof (unit_over_norm b Nb) as Ub.
  set (A := fun k : nat => a k / norm3 a) in *. set (B := fun k : nat => b k / norm3 b) in *.
  destruct (Req_EM_T (norm3 (cross3 A B)) 0) as [|Nc]; [discriminate|].
  pose proof (unit_over_norm _ Nc) as Uc. set (c := norm3 (cross3 A B)) in *.
  split; [exact (axis_angle_unit _ _ _ _ Uc E)|].
  rewrite (axis_angle_turns _ _ _ _ _ Uc E Hi). unfold turned.
  assert (C2 : c * c = 1 - dot3 A B * dot3 A B).
  { unfold c. rewrite norm3_sq. unfold unit_vec, ndot in Ua, Ub. cbn [rsum] in Ua, Ub.
    transitivity ((0 + A 0%nat * A 0%nat + A 1%nat * A 1%nat + A 2%nat * A 2%nat) * (0 + B 0%nat * B 0%nat + B 1%nat * B 1%nat + B 2%nat * B 2%nat) - dot3 A B * dot3 A B); [unfold cross3, dot3; ring|]. rewrite Ua, Ub. ring. }
  assert (Cp : 0 < c) by (assert (0 <= c) by apply sqrt_pos; lra).
  assert (RG : -1 <= dot3 A B <= 1) by nra.
  rewrite cos_acos by exact RG. rewrite sin_acos by exact RG.
  replace (sqrt (1 - (dot3 A B)²)) with c. 2:{ symmetry. apply sqrt_lem_1; unfold Rsqr; [nra|lra|exact C2]. }
  change (B i = B i) with (B i = B i). fold (B i).
  unfold unit_vec, ndot in Ua, Ub. cbn [rsum] in Ua, Ub.
  assert (Aa : A 0%nat * A 0%nat = 1 - A 1%nat * A 1%nat - A 2%nat * A 2%nat) by lra.
  assert (ND : ndot (fun k => cross3 A B k / c) A = 0) by (unfold ndot, cross3; cbn [rsum]; field; lra). rewrite ND.
  cases3 i Hi; unfold ncross, cross3, dot3; clear ND; field_simplify_eq; try lra; ring [Aa].
Qed.
Lemma rotate_to_parallel : rotate_to (fun k => match k with 0%nat => 1 | _ => 0 end) (fun k => match k with 0%nat => 1 | _ => 0 end) = None.
Proof.
  unfold rotate_to. cbv zeta. set (n := norm3 _). destruct (Req_EM_T n 0); [reflexivity|]. 
  destruct (Req_EM_T (norm3 (cross3 _ _)) 0) as [_|N]; [reflexivity|]. exfalso. apply N. unfold norm3, dot3, cross3. transitivity (sqrt 0); [f_equal; unfold Rdiv; ring|apply sqrt_0].
Qed.
Lemma turned_self : forall n a i, unit_vec n -> (i < 3)%nat -> turned n a n i = n i.
Proof.
  intros n a i U Hi. unfold turned. unfold unit_vec in U. rewrite U. cases3 i Hi; unfold ncross; ring.
Qed.
Lemma rotate_to_family_sound : forall a b ang q i, unit_vec b -> rotate_to_family a b ang = Some q -> (i < 3)%nat ->
  unitq q /\ apply_v q (fun k => a k / norm3 a) i = b i.
Proof.
  intros a b ang q i Ub E Hi. unfold rotate_to_family in E. destruct (rotate_to a b) as [base|] eqn:RB; [|discriminate].
  destruct (setAxisAngle b ang "radians") as [null|] eqn:NB; [|discriminate]. injection E as <-.
  assert (N1 : norm3 b = 1). { unfold unit_vec in Ub. rewrite norm3_ndot, Ub. apply sqrt_1. }
  destruct (rotate_to_sound a b base 0%nat RB ltac:(lia)) as [U _]. split; [apply unitq_mul; [exact (axis_angle_unit _ _ _ _ Ub NB)|exact U]|].
  rewrite apply_v_mul by exact Hi. 
  assert (X : forall k, (k < 3)%nat -> apply_v base (fun k => a k / norm3 a) k = b k).
  { intros k Hk. rewrite (proj2 (rotate_to_sound a b base k RB Hk)), N1. field. }
  transitivity (apply_v null b i).
  - pose proof (X 0%nat ltac:(lia)) as X0. pose proof (X 1%nat ltac:(lia)) as X1. pose proof (X 2%nat ltac:(lia)) as X2.
    unfold apply_v at 1. cbv zeta. rewrite X0, X1, X2. reflexivity.
  - rewrite (axis_angle_turns _ _ _ _ _ Ub NB Hi). apply turned_self; assumption.
Qed.
(** scaling a quaternion only changes the scalar part of its logarithm *)
Lemma log_scaled : forall k u l, 0 < k -> unitq u -> qlog u = Some l ->
  q0 l = 0 /\ qlog (qsmul k u) = Some (Quat (ln k) (q1 l) (q2 l) (q3 l)) /\ qexp (Quat (ln k) (q1 l) (q2 l) (q3 l)) = Some u.
Proof.
  intros k u l K U E. unfold qlog in E. destruct (Req_EM_T (qvnorm u) 0) as [|N]; [discriminate|].
  assert (N1 : qnorm u = 1). { unfold qnorm. unfold unitq in U. rewrite U. apply sqrt_1. }
  assert (NK : qnorm (qsmul k u) = k).
  { unfold qnorm, qsmul; cbn [q0 q1 q2 q3]. replace (_ + _) with (k * k * (q0 u * q0 u + q1 u * q1 u + q2 u * q2 u + q3 u * q3 u)) by ring.
    unfold unitq in U. rewrite U, Rmult_1_r. apply sqrt_square; lra. }
  assert (VK : qvnorm (qsmul k u) = k * qvnorm u).
  { unfold qvnorm, qsmul; cbn [q0 q1 q2 q3]. replace (_ + _) with (k * k * (q1 u * q1 u + q2 u * q2 u + q3 u * q3 u)) by ring.
    rewrite sqrt_mult_alt by nra. rewrite sqrt_square by lra. reflexivity. }
  destruct (exp_log u U N) as (l' & El & Ee). unfold qlog in El. destruct (Req_EM_T (qvnorm u) 0); [contradiction|].
  assert (l' = l) by congruence. subst l'. split; [|split].
  - injection E as <-. cbn [q0]. rewrite N1. apply ln_1.
  - unfold qlog. rewrite VK, NK. destruct (Req_EM_T (k * qvnorm u) 0) as [Z|_].
    + exfalso. apply Rmult_integral in Z. lra.
    + injection E as <-. rewrite N1. unfold qsmul; cbn [q0 q1 q2 q3].
      replace (q0 u * k / k) with (q0 u / 1) by (field; lra).
      assert (Y : forall x, x * k / (k * qvnorm u) = x / qvnorm u) by (intros x; field; split; [exact N|lra]).
      rewrite !Y. reflexivity.
  - rewrite <- Ee. destruct l as [a b c d]. unfold qexp, qvnorm; cbn [q0 q1 q2 q3]. reflexivity.
Qed.
