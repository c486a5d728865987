(** Euler, Hopf and hyperspherical angles, frames, logarithms, distances (src/math/rotations.cxx). *)
From Coq Require Import String ZArith.
From Verif Require Import Base.
From Verif Require Import Diff.
From Verif Require Import NemlMathModel.
From Verif Require Import NemlMathSpec.
From Verif Require Import NemlMathProofs.
From Verif Require Import RotModel.
From Verif Require Import RotSpec.
From Verif Require Import RotProofs.
From Verif Require Import RotMatrix.
From Verif Require Import RotConv.

Lemma convert_cast : forall a u b, cast_angle a u = Some b -> convert_angle b u = Some a.
Proof.
  intros a u b. unfold cast_angle, convert_angle. destruct (String.eqb "radians" u); [intros E; injection E as <-; reflexivity|].
  destruct (String.eqb "degrees" u); [|discriminate]. intros E. injection E as <-. f_equal. field. apply PI_neq0.
Qed.

(** ** Euler angles *)
Lemma kocks_rot : forall a b c, is_rot (t2 (kocks_to_matrix_ a b c)).
Proof.
  intros a b c. pose proof (sc1 a). pose proof (sc1 b). pose proof (sc1 c). split.
  - intros i j Hi Hj. cases3 i Hi; cases3 j Hj; qtab; ring [H H0 H1].
  - qtab. ring [H H0 H1].
Qed.
Lemma kocks_is : forall a b c, meq3 (t2 (kocks_to_matrix_ a b c)) (kocks a b c).
Proof.
  intros a b c i j Hi Hj.
  pose proof (cos_shift c) as E1. pose proof (sin_shift c) as E2.
  assert (E3 : cos (a + PI / 2) = - sin a). { rewrite (sin_cos a). rewrite (Rplus_comm (PI / 2)). lra. }
  assert (E4 : sin (a + PI / 2) = cos a). { rewrite (cos_sin a). f_equal. lra. }
  cases3 i Hi; cases3 j Hj; qtab; rewrite ?E1, ?E2, ?E3, ?E4; ring.
Qed.
Lemma kocks_ext : forall a b c a' b' c', cos a = cos a' -> sin a = sin a' -> cos b = cos b' -> sin b = sin b' -> cos c = cos c' -> sin c = sin c' ->
  meq3 (t2 (kocks_to_matrix_ a b c)) (t2 (kocks_to_matrix_ a' b' c')).
Proof. intros a b c a' b' c' H1 H2 H3 H4 H5 H6 i j Hi Hj. cases3 i Hi; cases3 j Hj; qtab; rewrite ?H1, ?H2, ?H3, ?H4, ?H5, ?H6; reflexivity. Qed.
Lemma meq3_trans : forall A B C, meq3 A B -> meq3 B C -> meq3 A C.
Proof. intros A B C H K i j Hi Hj. rewrite H by assumption. apply K; assumption. Qed.
Lemma meq3_sym : forall A B, meq3 A B -> meq3 B A.
Proof. intros A B H i j Hi Hj. symmetry. apply H; assumption. Qed.

Lemma euler_kocks : forall a b c, exists q, setEulerAngles a b c "radians" "kocks" = Some q /\ unitq q /\
  meq3 (t2 (to_matrix q)) (kocks a b c).
Proof.
  intros. eexists. split; [reflexivity|]. destruct (setMatrix_rot _ (kocks_rot a b c)) as [U M]. split; [exact U|].
  eapply meq3_trans; [exact M|apply kocks_is].
Qed.
Lemma euler_roe : forall a b c, exists q, setEulerAngles a b c "radians" "roe" = Some q /\ unitq q /\
  meq3 (t2 (to_matrix q)) (roe a b c).
Proof.
  intros. eexists. split; [reflexivity|]. destruct (setMatrix_rot _ (kocks_rot a b (PI - c))) as [U M]. split; [exact U|].
  eapply meq3_trans; [exact M|]. eapply meq3_trans; [apply kocks_is|]. unfold kocks, roe. replace (PI / 2 - (PI - c)) with (c - PI / 2) by field.
  intros i j Hi Hj. reflexivity.
Qed.
Lemma euler_bunge : forall a b c, 0 <= b < PI -> exists q, setEulerAngles a b c "radians" "bunge" = Some q /\ unitq q /\
  meq3 (t2 (to_matrix q)) (bunge a b c).
Proof.
  intros a b c Hb. eexists. split; [reflexivity|]. rewrite (fmod_small b PI Hb).
  destruct (setMatrix_rot _ (kocks_rot (fmod (a - PI / 2) (2 * PI)) b (fmod (PI / 2 - c) (2 * PI)))) as [U M]. split; [exact U|].
  eapply meq3_trans; [exact M|].
  eapply meq3_trans; [apply (kocks_ext _ _ _ (a - PI / 2) b (PI / 2 - c)); rewrite ?cos_fmod, ?sin_fmod; reflexivity|].
  eapply meq3_trans; [apply kocks_is|]. unfold kocks. replace (a - PI / 2 + PI / 2) with a by field. replace (PI / 2 - (PI / 2 - c)) with c by field.
  intros i j Hi Hj. reflexivity.
Qed.
(** a Bunge angle of 180 degrees is taken to be 0 *)
Lemma euler_bunge_pi : exists q, setEulerAngles 0 PI 0 "radians" "bunge" = Some q /\ t2 (to_matrix q) 2 2 = 1 /\ bunge 0 PI 0 2%nat 2%nat = -1.
Proof.
  eexists. split; [reflexivity|]. rewrite fmod_self.
  destruct (setMatrix_rot _ (kocks_rot (fmod (0 - PI / 2) (2 * PI)) 0 (fmod (PI / 2 - 0) (2 * PI)))) as [U M]. split.
  - rewrite (M 2%nat 2%nat ltac:(lia) ltac:(lia)). qtab. apply cos_0.
  - qtab. rewrite ?cos_PI, ?sin_PI, ?cos_0, ?sin_0. ring.
Qed.
Lemma euler_degrees : forall a b c conv, setEulerAngles a b c "degrees" conv = setEulerAngles (a * PI / 180) (b * PI / 180) (c * PI / 180) "radians" conv.
Proof.
  intros. unfold setEulerAngles. rewrite !conv_deg, !conv_rad.
  replace (a / 360 * 2 * PI) with (a * PI / 180) by field. replace (b / 360 * 2 * PI) with (b * PI / 180) by field.
  replace (c / 360 * 2 * PI) with (c * PI / 180) by field. reflexivity.
Qed.
Lemma euler_rejects : forall a b c u conv,
  (u <> "radians"%string /\ u <> "degrees"%string) \/ (conv <> "kocks"%string /\ conv <> "bunge"%string /\ conv <> "roe"%string) ->
  setEulerAngles a b c u conv = None.
Proof.
  intros a b c u conv H. unfold setEulerAngles, convert_angle, to_kocks_.
  destruct (String.eqb "radians" u) eqn:E1; [apply String.eqb_eq in E1|apply String.eqb_neq in E1];
  (destruct (String.eqb "degrees" u) eqn:E2; [apply String.eqb_eq in E2|apply String.eqb_neq in E2]); try reflexivity;
  (destruct (String.eqb "kocks" conv) eqn:E3; [apply String.eqb_eq in E3|apply String.eqb_neq in E3]);
  (destruct (String.eqb "bunge" conv) eqn:E4; [apply String.eqb_eq in E4|apply String.eqb_neq in E4]);
  (destruct (String.eqb "roe" conv) eqn:E5; [apply String.eqb_eq in E5|apply String.eqb_neq in E5]);
  try reflexivity; exfalso; intuition congruence.
Qed.

(** reading off Kocks angles *)
Lemma kocks_of_rot : forall a b c d e f g h k s A C : R,
  a*a+b*b+c*c = 1 -> d*d+e*e+f*f = 1 -> g*g+h*h+k*k = 1 -> a*d+b*e+c*f = 0 -> a*g+b*h+c*k = 0 -> d*g+e*h+f*k = 0 ->
  a*(e*k-f*h) - b*(d*k-f*g) + c*(d*h-e*g) = 1 ->
  s <> 0 -> s * s = 1 - k * k -> cos A = g / s -> sin A = h / s -> cos C = c / s -> sin C = f / s ->
  - sin C * sin A - cos C * cos A * k = a /\ sin C * cos A - cos C * sin A * k = b /\ cos C * s = c /\
  cos C * sin A - sin C * cos A * k = d /\ - cos C * cos A - sin C * sin A * k = e /\ sin C * s = f /\
  cos A * s = g /\ sin A * s = h.
Proof.
  intros a b c d e f g h k s A C R1 R2 R3 O12 O13 O23 Dt N S cA sA cC sC.
  destruct (rot_cof a b c d e f g h k R1 R2 R3 O12 O13 O23 Dt) as [[Ea [Eb Ec]] [[Ed [Ee Ef]] [Eg [Eh Ek]]]].
  rewrite cA, sA, cC, sC. assert (SS : s * s <> 0) by (intros Z; apply Rmult_integral in Z; tauto).
  repeat split; try (field; exact N); apply (Rmult_eq_reg_r (s * s)); try exact SS.
  - transitivity (- (f * h) - c * g * k); [field; exact N|]. rewrite S.
    transitivity (- (f * h) - (a * k - e) * k); [f_equal; f_equal; lra|]. transitivity (e * k - f * h - a * k * k); [ring|]. rewrite <- Ea. ring.
  - transitivity (f * g - c * h * k); [field; exact N|]. rewrite S.
    transitivity (f * g - (d + b * k) * k); [f_equal; f_equal; lra|]. transitivity (f * g - d * k - b * k * k); [ring|]. rewrite <- Eb. ring.
  - transitivity (c * h - f * g * k); [field; exact N|]. rewrite S.
    transitivity (c * h - (b + d * k) * k); [f_equal; f_equal; lra|]. transitivity (c * h - b * k - d * k * k); [ring|]. rewrite <- Ed. ring.
  - transitivity (- (c * g) - f * h * k); [field; exact N|]. rewrite S.
    transitivity (- (c * g) - (e * k - a) * k); [f_equal; f_equal; lra|]. transitivity (a * k - c * g - e * k * k); [ring|]. rewrite <- Ee. ring.
Qed.

Lemma two_sq : forall x y, x * x + y * y = 0 -> x = 0 /\ y = 0.
Proof. intros x y H. split; nra. Qed.
Lemma le_one : forall x y z, x * x + y * y + z * z = 1 -> -1 <= z <= 1.
Proof. intros x y z H. nra. Qed.
(** the angles the code finds before converting them to the requested convention *)
Definition kocks_angles (M : vec) : R * R * R :=
  if Rlt_dec (Rabs (Rabs (t2 M 2 2) - 1)) (1 / 10 ^ 15) then
    let sa := atan2 (t2 M 0 1) (t2 M 0 0) / 2 - PI / 2 in (sa, 0, - sa)
  else
    let sb := acos (t2 M 2 2) in
    let s := sin sb in
    (PI / 2 - atan2 (t2 M 2 0 / s) (t2 M 2 1 / s), sb, PI / 2 - atan2 (t2 M 0 2 / s) (t2 M 1 2 / s)).

Lemma cos_half_pi : forall x, cos (PI / 2 - x) = sin x. Proof. apply cos_shift. Qed.
Lemma sin_half_pi : forall x, sin (PI / 2 - x) = cos x. Proof. apply sin_shift. Qed.

Lemma kocks_angles_sound : forall M a b c, is_rot (t2 M) -> 1 / 10 ^ 15 <= Rabs (Rabs (t2 M 2 2) - 1) \/ t2 M 2 2 = 1 ->
  kocks_angles M = (a, b, c) -> meq3 (t2 (kocks_to_matrix_ a b c)) (t2 M) /\ 0 <= b < PI.
Proof.
  intros M a b c [H Dt] Hm E.
  pose proof (H 0 0 ltac:(lia) ltac:(lia))%nat as R1. pose proof (H 1 1 ltac:(lia) ltac:(lia))%nat as R2.
  pose proof (H 2 2 ltac:(lia) ltac:(lia))%nat as R3. pose proof (H 0 1 ltac:(lia) ltac:(lia))%nat as O12.
  pose proof (H 0 2 ltac:(lia) ltac:(lia))%nat as O13. pose proof (H 1 2 ltac:(lia) ltac:(lia))%nat as O23. clear H.
  revert R1 R2 R3 O12 O13 O23 Dt Hm E. unfold kocks_angles. cbv [t2 Nat.add Nat.mul rsum delta Nat.eqb det3].
  intros R1 R2 R3 O12 O13 O23 Dt Hm E.
  set (a0 := M 0%nat) in *. set (b0 := M 1%nat) in *. set (c0 := M 2%nat) in *. set (d0 := M 3%nat) in *. set (e0 := M 4%nat) in *.
  set (f0 := M 5%nat) in *. set (g0 := M 6%nat) in *. set (h0 := M 7%nat) in *. set (k0 := M 8%nat) in *.
  assert (R1' : a0*a0+b0*b0+c0*c0 = 1) by lra. assert (R2' : d0*d0+e0*e0+f0*f0 = 1) by lra. assert (R3' : g0*g0+h0*h0+k0*k0 = 1) by lra.
  assert (O12' : a0*d0+b0*e0+c0*f0 = 0) by lra. assert (O13' : a0*g0+b0*h0+c0*k0 = 0) by lra. assert (O23' : d0*g0+e0*h0+f0*k0 = 0) by lra.
  clear R1 R2 R3 O12 O13 O23.
  destruct (rot_cols a0 b0 c0 d0 e0 f0 g0 h0 k0 R1' R2' R3' O12' O13' O23' Dt) as [C1 [C2 [C3 _]]].
  destruct (Rlt_dec (Rabs (Rabs k0 - 1)) (1 / 10 ^ 15)) as [L|L].
  - assert (K : k0 = 1) by (destruct Hm; [exfalso; lra|assumption]). injection E as <- <- <-.
    destruct (rot_cof a0 b0 c0 d0 e0 f0 g0 h0 k0 R1' R2' R3' O12' O13' O23' Dt) as [[Ea [Eb Ec]] [[Ed [Ee Ef]] [Eg [Eh Ek]]]].
    rewrite K in *. 
    destruct (two_sq g0 h0 ltac:(lra)) as [G0 H0]. destruct (two_sq c0 f0 ltac:(lra)) as [C0 F0].
    rewrite G0, H0, C0, F0 in *.
    assert (Q : a0 * a0 + b0 * b0 = 1) by lra.
    destruct (atan2_spec b0 a0 ltac:(lra)) as [cA sA]. rewrite Q, sqrt_1 in cA, sA. set (t := atan2 b0 a0) in *. clearbody t.
    assert (X : forall u, u + u = t - PI -> cos u * cos u - sin u * sin u = - a0 /\ 2 * sin u * cos u = - b0).
    { intros u Eu. rewrite <- cos_2a, <- sin_2a. replace (2 * u) with (t - PI) by lra. rewrite cos_minus, sin_minus, cos_PI, sin_PI, cA, sA. lra. }
    destruct (X (t / 2 - PI / 2) ltac:(field)) as [X1 X2]. set (u := t / 2 - PI / 2) in *. clearbody u.
    pose proof (sc1 u) as SC. split; [|pose proof PI_RGT_0; lra].
    intros i j Hi Hj.
    cases3 i Hi; cases3 j Hj; qtab; fold a0 b0 c0 d0 e0 f0 g0 h0 k0; rewrite ?cos_neg, ?sin_neg, ?cos_0, ?sin_0, ?G0, ?H0, ?C0, ?F0, ?K; lra.
  - assert (K1 : k0 <> 1). { intros Z. apply L. rewrite Z, Rabs_R1. replace (1 - 1) with 0 by ring. rewrite Rabs_R0. apply Rdiv_lt_0_compat; [lra|apply pow_lt; lra]. }
    assert (K2 : k0 <> -1). { intros Z. apply L. rewrite Z. replace (Rabs (-1)) with 1 by (rewrite Rabs_left; lra). replace (1 - 1) with 0 by ring. rewrite Rabs_R0. apply Rdiv_lt_0_compat; [lra|apply pow_lt; lra]. }
    pose proof (le_one g0 h0 k0 R3') as KR. injection E as <- <- <-.
    set (B := acos k0) in *. set (s := sin B) in *.
    assert (CB : cos B = k0) by (apply cos_acos; exact KR).
    pose proof (sc1 B) as SB. rewrite CB in SB. fold s in SB.
    assert (N : s <> 0). { intros Z. rewrite Z in SB. assert ((1 - k0) * (1 + k0) = 0) by lra. apply Rmult_integral in H. lra. }
    pose proof (acos_bound k0) as BB. fold B in BB.
    assert (D1 : h0 / s * (h0 / s) + g0 / s * (g0 / s) = 1). { transitivity ((g0 * g0 + h0 * h0) / (s * s)); [field; exact N|]. rewrite SB. replace (g0 * g0 + h0 * h0) with (1 - k0 * k0) by lra. field. intros Z. rewrite <- SB in Z. apply Rmult_integral in Z. tauto. }
    assert (D2 : f0 / s * (f0 / s) + c0 / s * (c0 / s) = 1). { transitivity ((c0 * c0 + f0 * f0) / (s * s)); [field; exact N|]. rewrite SB. replace (c0 * c0 + f0 * f0) with (1 - k0 * k0) by lra. field. intros Z. rewrite <- SB in Z. apply Rmult_integral in Z. tauto. }
    destruct (atan2_spec (g0 / s) (h0 / s) ltac:(lra)) as [cA sA]. rewrite D1, sqrt_1 in cA, sA.
    destruct (atan2_spec (c0 / s) (f0 / s) ltac:(lra)) as [cC sC]. rewrite D2, sqrt_1 in cC, sC.
    set (A := atan2 (g0 / s) (h0 / s)) in *. set (C := atan2 (c0 / s) (f0 / s)) in *. clearbody A C.
    destruct (kocks_of_rot a0 b0 c0 d0 e0 f0 g0 h0 k0 s (PI / 2 - A) (PI / 2 - C) R1' R2' R3' O12' O13' O23' Dt N SB) as [Q0 [Q1 [Q2 [Q3 [Q4 [Q5 [Q6 Q7]]]]]]];
      [rewrite cos_half_pi, sA; field; exact N | rewrite sin_half_pi, cA; field; exact N | rewrite cos_half_pi, sC; field; exact N | rewrite sin_half_pi, cC; field; exact N |].
    split.
    + intros i j Hi Hj. cases3 i Hi; cases3 j Hj; cbv [t2 kocks_to_matrix_ Nat.add Nat.mul]; fold s; rewrite ?CB; first [assumption|reflexivity].
    + split; [lra|]. destruct (Req_EM_T B PI) as [Z|Z]; [|lra]. exfalso. rewrite Z, cos_PI in CB. lra.
Qed.

Lemma to_euler_form : forall q u conv, to_euler q u conv =
  let '(sa, sb, sc) := kocks_angles (to_matrix q) in
  match from_kocks_ sa sb sc conv with
  | None => None
  | Some (na, nb, nc) => match cast_angle na u, cast_angle nb u, cast_angle nc u with Some a, Some b, Some c => Some (a, b, c) | _, _, _ => None end
  end.
Proof. reflexivity. Qed.

Lemma to_euler_sound : forall q u conv a b c, unitq q ->
  1 / 10 ^ 15 <= Rabs (Rabs (t2 (to_matrix q) 2 2) - 1) \/ t2 (to_matrix q) 2 2 = 1 ->
  to_euler q u conv = Some (a, b, c) ->
  exists p, setEulerAngles a b c u conv = Some p /\ unitq p /\ meq3 (t2 (to_matrix p)) (t2 (to_matrix q)).
Proof.
  intros q u conv a b c U Hm E. rewrite to_euler_form in E.
  destruct (kocks_angles (to_matrix q)) as [[sa sb] sc] eqn:KA.
  destruct (kocks_angles_sound _ _ _ _ (to_matrix_rot q U) Hm KA) as [KM KB].
  destruct (from_kocks_ sa sb sc conv) as [[[na nb] nc]|] eqn:FK; [|discriminate].
  destruct (cast_angle na u) as [xa|] eqn:Ca; [|discriminate]. destruct (cast_angle nb u) as [xb|] eqn:Cb; [|discriminate].
  destruct (cast_angle nc u) as [xc|] eqn:Cc; [|discriminate]. injection E as <- <- <-.
  unfold setEulerAngles. rewrite (convert_cast _ _ _ Ca), (convert_cast _ _ _ Cb), (convert_cast _ _ _ Cc).
  assert (T : exists ka kb kc, to_kocks_ na nb nc conv = Some (ka, kb, kc) /\ cos ka = cos sa /\ sin ka = sin sa /\ cos kb = cos sb /\ sin kb = sin sb /\ cos kc = cos sc /\ sin kc = sin sc).
  { unfold from_kocks_ in FK. unfold to_kocks_. destruct (String.eqb "kocks" conv).
    - injection FK as <- <- <-. repeat eexists.
    - destruct (String.eqb "bunge" conv).
      + injection FK as <- <- <-. do 3 eexists. split; [reflexivity|].
        rewrite !cos_fmod, !sin_fmod, (fmod_small sb PI KB), (fmod_small sb PI KB).
        assert (X1 : cos (fmod (sa + PI / 2) (2 * PI) - PI / 2) = cos sa).
        { destruct (fmod_int (sa + PI / 2) (2 * PI)) as [z ->]. replace (sa + PI / 2 + IZR z * (2 * PI) - PI / 2) with (sa + IZR z * (2 * PI)) by ring. apply cos_2PI_Z. }
        assert (X2 : sin (fmod (sa + PI / 2) (2 * PI) - PI / 2) = sin sa).
        { destruct (fmod_int (sa + PI / 2) (2 * PI)) as [z ->]. replace (sa + PI / 2 + IZR z * (2 * PI) - PI / 2) with (sa + IZR z * (2 * PI)) by ring. apply sin_2PI_Z. }
        rewrite X1, X2, cos_half_pi, sin_half_pi, cos_fmod, sin_fmod, cos_half_pi, sin_half_pi. repeat split; reflexivity.
      + destruct (String.eqb "roe" conv); [|discriminate]. injection FK as <- <- <-. do 3 eexists. split; [reflexivity|].
        replace (PI - (PI - sc)) with sc by ring. repeat split; reflexivity. }
  destruct T as [ka [kb [kc [-> [T1 [T2 [T3 [T4 [T5 T6]]]]]]]]]. eexists. split; [reflexivity|].
  destruct (setMatrix_rot _ (kocks_rot ka kb kc)) as [V W]. split; [exact V|].
  eapply meq3_trans; [exact W|]. eapply meq3_trans; [|exact KM]. apply kocks_ext; assumption.
Qed.
(** half turns about an axis in the plane: the angles found are those of no rotation at all *)
Lemma to_euler_half_turn : exists p, make_crystal_orientation (Quat 0 1 0 0) = Some p /\
  meq3 (t2 (to_matrix p)) id3 /\ t2 (to_matrix (Quat 0 1 0 0)) 2 2 = -1.
Proof.
  unfold make_crystal_orientation. rewrite to_euler_form.
  assert (K : kocks_angles (to_matrix (Quat 0 1 0 0)) = (- (PI / 2), 0, PI / 2)).
  { unfold kocks_angles. qtab. destruct (Rlt_dec _ _) as [L|L].
    - replace (2 * (1 * 0 - 0 * 0)) with 0 by ring. replace (1 - 2 * (0 * 0) - 2 * (0 * 0)) with 1 by ring.
      assert (A : atan2 0 1 = 0). { unfold atan2. destruct (Rlt_dec 0 1); [|lra]. replace (0 / 1) with 0 by field. apply atan_0. }
      rewrite A. f_equal; [f_equal|]; field.
    - exfalso. apply L. replace (1 - 2 * (1 * 1) - 2 * (0 * 0)) with (-1) by ring. replace (Rabs (-1)) with 1 by (rewrite Rabs_left; lra).
      replace (1 - 1) with 0 by ring. rewrite Rabs_R0. apply Rdiv_lt_0_compat; [lra|apply pow_lt; lra]. }
  rewrite K. cbn [from_kocks_ String.eqb Ascii.eqb Bool.eqb]. 
  change (from_kocks_ (- (PI / 2)) 0 (PI / 2) "kocks") with (Some (- (PI / 2), 0, PI / 2)).
  rewrite !cast_rad. unfold crystal_orientation. destruct (euler_kocks (- (PI / 2)) 0 (PI / 2)) as [p [E [U M]]].
  rewrite E. exists p. split; [reflexivity|]. split.
  - eapply meq3_trans; [exact M|]. eapply meq3_trans; [apply meq3_sym, kocks_is|].
    intros i j Hi Hj. cases3 i Hi; cases3 j Hj; qtab; rewrite ?cos_neg, ?sin_neg, ?cos_0, ?sin_0, ?cos_PI2, ?sin_PI2; ring.
  - qtab. ring.
Qed.
