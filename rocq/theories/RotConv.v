(** Conversions between orientations and Rodrigues vectors, axis/angle pairs, Euler, Hopf and
    hyperspherical angles, vectors, logarithms (src/math/rotations.cxx). *)
From Coq Require Import String ZArith.
From Verif Require Import Base.
From Verif Require Import Diff.
From Verif Require Import NemlMathModel.
From Verif Require Import NemlMathSpec.
From Verif Require Import NemlMathProofs.
From Verif Require Import RotModel.
From Verif Require Import RotSpec.
From Verif Require Import RotProofs.
From Verif Require Import RotMatrix.

(** ** Trigonometry *)
Lemma sc1 : forall x, sin x * sin x = 1 - cos x * cos x.
Proof. intros x. pose proof (sin2_cos2 x) as H. unfold Rsqr in H. lra. Qed.
Lemma half_cos : forall x, cos x = 1 - 2 * (sin (x / 2) * sin (x / 2)).
Proof. intros x. replace x with (2 * (x / 2)) at 1 by field. rewrite cos_2a_sin. ring. Qed.
Lemma half_sin : forall x, sin x = 2 * sin (x / 2) * cos (x / 2).
Proof. intros x. replace x with (2 * (x / 2)) at 1 by field. apply sin_2a. Qed.

Lemma atan2_spec : forall y x, x * x + y * y <> 0 ->
  cos (atan2 y x) = x / sqrt (x * x + y * y) /\ sin (atan2 y x) = y / sqrt (x * x + y * y).
Proof.
  intros y x N. set (r := sqrt (x * x + y * y)).
  assert (P : 0 < x * x + y * y) by nra.
  assert (Rp : 0 < r) by (apply sqrt_lt_R0; exact P).
  assert (RR : r * r = x * x + y * y) by (apply sqrt_sqrt; lra).
  assert (G : forall z, 0 < z -> z * z = x * x -> z <> 0 -> sqrt (1 + (y / x)²) = r / z).
  { intros z Hz E _. assert (x <> 0) by nra.
    apply sqrt_lem_1.
    - pose proof (Rle_0_sqr (y / x)). lra.
    - unfold Rdiv. apply Rmult_le_pos; [lra|]. left. apply Rinv_0_lt_compat. exact Hz.
    - unfold Rsqr. transitivity (r * r / (z * z)); [field; lra|]. rewrite RR, E. field. assumption. }
  unfold atan2. destruct (Rlt_dec 0 x) as [X|X].
  - rewrite cos_atan, sin_atan, (G x) by lra. split; field; lra.
  - destruct (Rlt_dec x 0) as [X'|X'].
    + pose proof (G (- x) ltac:(lra) ltac:(ring) ltac:(lra)) as S.
      destruct (Rle_dec 0 y).
      * rewrite neg_cos, neg_sin, cos_atan, sin_atan, S. split; field; lra.
      * unfold Rminus. rewrite <- (cos_neg (atan (y / x) + - PI)). replace (- (atan (y / x) + - PI)) with (- atan (y / x) + PI) by ring.
        rewrite neg_cos, cos_neg, cos_atan, S.
        replace (sin (atan (y / x) + - PI)) with (- sin (- atan (y / x) + PI)) by (rewrite <- sin_neg; f_equal; ring).
        rewrite neg_sin, sin_neg, sin_atan, S. split; field; lra.
    + assert (x = 0) by lra. subst x.
      assert (E : r = Rabs y). { unfold r. replace (0 * 0 + y * y) with (y²) by (unfold Rsqr; ring). apply sqrt_Rsqr_abs. }
      destruct (Rlt_dec 0 y).
      * rewrite cos_PI2, sin_PI2, E, Rabs_right by lra. split; field; lra.
      * assert (y < 0) by nra. destruct (Rlt_dec y 0); [|contradiction].
        rewrite cos_neg, sin_neg, cos_PI2, sin_PI2, E, Rabs_left by lra. split; field; lra.
Qed.
Lemma fmod_int : forall x y, exists n : Z, fmod x y = x + IZR n * y.
Proof.
  intros x y. unfold fmod. cbv zeta. destruct (Rle_dec 0 (x / y)).
  - exists (- Int_part (x / y))%Z. rewrite opp_IZR. ring.
  - exists (Int_part (- (x / y)))%Z. ring.
Qed.
Lemma cos_2PI_Z : forall x n, cos (x + IZR n * (2 * PI)) = cos x.
Proof.
  intros x n. destruct n as [|p|p].
  - f_equal. ring.
  - rewrite <- positive_nat_Z. rewrite <- INR_IZR_INZ. replace (x + INR (Pos.to_nat p) * (2 * PI)) with (x + 2 * INR (Pos.to_nat p) * PI) by ring. apply cos_period.
  - rewrite <- (cos_period (x + IZR (Z.neg p) * (2 * PI)) (Pos.to_nat p)). f_equal.
    rewrite INR_IZR_INZ, positive_nat_Z. change (Z.neg p) with (- Z.pos p)%Z. rewrite opp_IZR. ring.
Qed.
Lemma sin_2PI_Z : forall x n, sin (x + IZR n * (2 * PI)) = sin x.
Proof.
  intros x n. destruct n as [|p|p].
  - f_equal. ring.
  - rewrite <- positive_nat_Z. rewrite <- INR_IZR_INZ. replace (x + INR (Pos.to_nat p) * (2 * PI)) with (x + 2 * INR (Pos.to_nat p) * PI) by ring. apply sin_period.
  - rewrite <- (sin_period (x + IZR (Z.neg p) * (2 * PI)) (Pos.to_nat p)). f_equal.
    rewrite INR_IZR_INZ, positive_nat_Z. change (Z.neg p) with (- Z.pos p)%Z. rewrite opp_IZR. ring.
Qed.
Lemma cos_fmod : forall x, cos (fmod x (2 * PI)) = cos x.
Proof. intros x. destruct (fmod_int x (2 * PI)) as [n ->]. apply cos_2PI_Z. Qed.
Lemma sin_fmod : forall x, sin (fmod x (2 * PI)) = sin x.
Proof. intros x. destruct (fmod_int x (2 * PI)) as [n ->]. apply sin_2PI_Z. Qed.
Lemma fmod_small : forall x y, 0 <= x < y -> fmod x y = x.
Proof.
  intros x y [H0 H1]. unfold fmod. cbv zeta.
  assert (Z0 : 0 <= x / y). { unfold Rdiv. apply Rmult_le_pos; [lra|]. left. apply Rinv_0_lt_compat. lra. }
  assert (Z1 : x / y < 1). { apply (Rmult_lt_reg_r y); [lra|]. unfold Rdiv. rewrite Rmult_assoc, Rinv_l by lra. lra. }
  destruct (Rle_dec 0 (x / y)); [|contradiction].
  assert (I : Int_part (x / y) = 0%Z).
  { destruct (base_Int_part (x / y)) as [A B]. apply one_IZR_lt1. split; lra. }
  rewrite I. ring.
Qed.
Lemma fmod_self : fmod PI PI = 0.
Proof.
  pose proof PI_RGT_0 as P. unfold fmod. cbv zeta. replace (PI / PI) with 1 by (field; lra). destruct (Rle_dec 0 1); [|lra].
  assert (I : Int_part 1 = 1%Z). { destruct (base_Int_part 1) as [A B]. assert (D : (Int_part 1 - 1)%Z = 0%Z). { apply one_IZR_lt1. rewrite minus_IZR. split; lra. } lia. }
  rewrite I. ring.
Qed.

(** ** Rodrigues vectors *)
Lemma rodrigues_unit : forall r, unitq (setRodrigues r).
Proof.
  intros r. unfold setRodrigues. cbv zeta. set (n := r 0%nat * r 0%nat + r 1%nat * r 1%nat + r 2%nat * r 2%nat).
  assert (N : 0 <= n) by (unfold n; nra). assert (S : sqrt (1 + n) * sqrt (1 + n) = 1 + n) by (apply sqrt_sqrt; lra).
  assert (sqrt (1 + n) <> 0) by nra. unfold unitq. cbn [q0 q1 q2 q3].
  transitivity ((1 + n) / (sqrt (1 + n) * sqrt (1 + n))); [unfold n; field; assumption|]. rewrite S. field. lra.
Qed.
Lemma rodrigues_back : forall r i, (i < 3)%nat -> to_rodrigues (setRodrigues r) i = r i.
Proof.
  intros r i Hi. unfold to_rodrigues, setRodrigues. cbv zeta. set (n := r 0%nat * r 0%nat + r 1%nat * r 1%nat + r 2%nat * r 2%nat).
  cbn [q0 q1 q2 q3]. assert (N : 0 <= n) by (unfold n; nra).
  assert (P : 0 < sqrt (1 + n)) by (apply sqrt_lt_R0; lra).
  assert (F : 1 / sqrt (1 + n) <> 0). { unfold Rdiv. rewrite Rmult_1_l. apply Rinv_neq_0_compat. lra. }
  destruct (Req_EM_T (1 / sqrt (1 + n)) 0); [contradiction|]. cases3 i Hi; field; lra.
Qed.
Lemma rodrigues_forth : forall q, unitq q -> 0 < q0 q -> setRodrigues (to_rodrigues q) = q.
Proof.
  intros [a b c d] H P. unfold unitq in H. unfold to_rodrigues, setRodrigues. cbn [q0 q1 q2 q3] in *.
  destruct (Req_EM_T a 0); [lra|]. cbv zeta.
  assert (S : sqrt (1 + (b / a * (b / a) + c / a * (c / a) + d / a * (d / a))) = 1 / a).
  { apply sqrt_lem_1.
    - assert (0 <= b / a * (b / a) + c / a * (c / a) + d / a * (d / a)) by nra. lra.
    - unfold Rdiv. rewrite Rmult_1_l. left. apply Rinv_0_lt_compat. lra.
    - transitivity ((a * a + b * b + c * c + d * d) / (a * a)); [rewrite H; field; lra|field; lra]. }
  rewrite S. apply quat_ext; cbn [q0 q1 q2 q3]; field; lra.
Qed.
Lemma rodrigues_half_turn_wrong : unitq (Quat 0 1 0 0) /\ setRodrigues (to_rodrigues (Quat 0 1 0 0)) <> Quat 0 1 0 0.
Proof.
  split; [unfold unitq; cbn; ring|]. intros E. apply (f_equal q0) in E. revert E. unfold setRodrigues. cbv zeta. cbn [q0].
  set (n := _ + _ + _). intros E. assert (N : 0 <= n) by (unfold n; nra). assert (P : 0 < sqrt (1 + n)) by (apply sqrt_lt_R0; lra).
  pose proof (Rinv_0_lt_compat _ P). unfold Rdiv in E. lra.
Qed.

(** ** Axis and angle *)
Lemma cast_rad : forall a, cast_angle a "radians" = Some a.
Proof. reflexivity. Qed.
Lemma conv_rad : forall a, convert_angle a "radians" = Some a.
Proof. reflexivity. Qed.
Lemma conv_deg : forall a, convert_angle a "degrees" = Some (a / 360 * 2 * PI).
Proof. reflexivity. Qed.
Lemma axis_angle_unit : forall n a u q, unit_vec n -> setAxisAngle n a u = Some q -> unitq q.
Proof.
  intros n a u q H E. unfold setAxisAngle in E. destruct (convert_angle a u) as [t|]; [|discriminate]. injection E as <-.
  unfold unit_vec, ndot in H. cbn [rsum] in H. unfold unitq. cbn [q0 q1 q2 q3].
  transitivity (cos (t / 2) * cos (t / 2) + sin (t / 2) * sin (t / 2) * (0 + n 0%nat * n 0%nat + n 1%nat * n 1%nat + n 2%nat * n 2%nat)); [ring|].
  rewrite H, sc1. ring.
Qed.
Lemma axis_angle_turns : forall n a q v i, unit_vec n -> setAxisAngle n a "radians" = Some q -> (i < 3)%nat ->
  apply_v q v i = turned n a v i.
Proof.
  intros n a q v i H E Hi. unfold setAxisAngle in E. rewrite conv_rad in E. injection E as <-.
  unfold unit_vec, ndot in H. cbn [rsum] in H.
  assert (N : n 0%nat * n 0%nat = 1 - n 1%nat * n 1%nat - n 2%nat * n 2%nat) by lra.
  unfold turned. rewrite (half_cos a), (half_sin a).
  pose proof (sc1 (a / 2)) as S. assert (C : cos (a / 2) * cos (a / 2) = 1 - sin (a / 2) * sin (a / 2)) by lra.
  set (c := cos (a / 2)) in *. set (s := sin (a / 2)) in *. clear S H. clearbody c s. 
  cases3 i Hi; qtab; ring [C N].
Qed.
Lemma axis_angle_degrees : forall n a, setAxisAngle n a "degrees" = setAxisAngle n (a * PI / 180) "radians".
Proof.
  intros. unfold setAxisAngle. rewrite conv_rad, conv_deg.
  replace (a / 360 * 2 * PI) with (a * PI / 180) by field. reflexivity.
Qed.
Lemma clip_unit : forall q, unitq q -> Rmax (-1) (Rmin (q0 q) 1) = q0 q.
Proof.
  intros [a b c d] H. unfold unitq in H. cbn [q0 q1 q2 q3] in *. assert (-1 <= a <= 1) by nra.
  rewrite Rmin_left by lra. apply Rmax_right. lra.
Qed.
Lemma unit_q0_range : forall q, unitq q -> -1 <= q0 q <= 1.
Proof. intros [a b c d] H. unfold unitq in H. cbn [q0 q1 q2 q3] in *. nra. Qed.
Lemma to_axis_angle_sound : forall q n a p, unitq q -> 1 / 10 ^ 16 <= a \/ a = 0 ->
  to_axis_angle q "radians" = Some (Some n, a) -> setAxisAngle n a "radians" = Some p -> p = q /\ unit_vec n.
Proof.
  intros q n a p H Ha E F. unfold to_axis_angle in E. rewrite (clip_unit q H) in E. cbv zeta in E. rewrite cast_rad in E.
  pose proof (unit_q0_range q H) as RG. set (t := acos (q0 q)) in *.
  assert (C : cos t = q0 q) by (apply cos_acos; exact RG).
  unfold setAxisAngle in F. rewrite conv_rad in F. injection F as <-.
  destruct (Rlt_dec (2 * t) (1 / 10 ^ 16)) as [L|L].
  - injection E as <- <-. assert (T : 2 * t = 0) by (destruct Ha; [exfalso; lra|assumption]).
    assert (T0 : t = 0) by lra. rewrite T0, cos_0 in C.
    destruct q as [b c d e]. unfold unitq in H. cbn [q0 q1 q2 q3] in *. subst b.
    assert (c = 0) by nra. assert (d = 0) by nra. assert (e = 0) by nra. subst.
    rewrite T0. replace (2 * 0 / 2) with 0 by field. rewrite cos_0, sin_0. split.
    + f_equal; ring.
    + unfold unit_vec, ndot. cbn [rsum]. ring.
  - replace (2 * t / 2) with t in E by field. destruct (Req_EM_T (sin t) 0) as [Z|Z]; [discriminate|]. injection E as <- <-.
    replace (2 * t / 2) with t by field. pose proof (sc1 t) as S. rewrite C in *.
    destruct q as [b c d e]. unfold unitq in H. cbn [q0 q1 q2 q3] in *. split.
    + f_equal; field; exact Z.
    + unfold unit_vec, ndot. cbn [rsum]. transitivity ((c * c + d * d + e * e) / (sin t * sin t)); [field; exact Z|].
      rewrite S. replace (c * c + d * d + e * e) with (1 - b * b) by lra. field. rewrite <- S. intros Y. apply Rmult_integral in Y. tauto.
Qed.
Lemma to_axis_angle_back : forall n a q, unit_vec n -> 1 / 10 ^ 16 <= a -> a < 2 * PI -> setAxisAngle n a "radians" = Some q ->
  exists m, to_axis_angle q "radians" = Some (Some m, a) /\ forall i, (i < 3)%nat -> m i = n i.
Proof.
  intros n a q H L U E. pose proof (axis_angle_unit n a _ q H E) as Uq. unfold to_axis_angle. rewrite (clip_unit q Uq).
  unfold setAxisAngle in E. rewrite conv_rad in E. injection E as <-. cbn [q0 q1 q2 q3].
  assert (A : 0 < a). { assert (0 < 1 / 10 ^ 16) by (apply Rdiv_lt_0_compat; [lra|apply pow_lt; lra]). lra. }
  rewrite acos_cos by lra. replace (2 * (a / 2)) with a by field.
  assert (S : 0 < sin (a / 2)) by (apply sin_gt_0; lra).
  cbv zeta. rewrite cast_rad.
  destruct (Rlt_dec a (1 / 10 ^ 16)); [lra|]. destruct (Req_EM_T (sin (a / 2)) 0); [lra|].
  eexists. split; [reflexivity|]. intros i Hi. cases3 i Hi; field; lra.
Qed.
