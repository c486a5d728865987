(** C15: Mandel/skew notation.  C48: integer helpers.  C50: angle conversions. *)
From Coq Require Import String ZArith List.
From Verif Require Import Base.
From Verif Require Import Diff.
From Verif Require Import NemlMathModel.
From Verif Require Import NemlMathSpec.
From Verif Require Import NemlMathProofs.
From Verif Require Import TruesdellProofs.
From Verif Require Import GcdProofs.
Import ListNotations.

(** ** C15 *)
Theorem C15_symmetric_round_trip : forall v A,
  veq 6 (sym (usym v)) v /\ is_sym2 (usym v) /\
  (is_sym2 A -> forall i j, (i < 3)%nat -> (j < 3)%nat -> t2 (usym (sym A)) i j = t2 A i j).
Proof. intros v A. split; [apply sym_usym|]. split; [apply usym_is_sym|]. intros H. apply usym_sym, H. Qed.
Print Assumptions C15_symmetric_round_trip.
Theorem C15_skew_round_trip : forall v A,
  veq 3 (skew (uskew v)) v /\ is_skew2 (uskew v) /\
  (is_skew2 A -> forall i j, (i < 3)%nat -> (j < 3)%nat -> t2 (uskew (skew A)) i j = t2 A i j).
Proof. intros v A. split; [apply skew_uskew|]. split; [apply uskew_is_skew|]. intros H. apply uskew_skew, H. Qed.
Print Assumptions C15_skew_round_trip.
(** the dot product of the 6-vectors is the double contraction of the tensors *)
Theorem C15_isometry : forall A B, is_sym2 A -> is_sym2 B -> dot 6 (sym A) (sym B) = ddot22 A B.
Proof. exact sym_dot. Qed.
Print Assumptions C15_isometry.
(** the three skew components carry half of the double contraction *)
Theorem C15_skew_contraction : forall v w, ddot22 (uskew v) (uskew w) = 2 * dot 3 v w.
Proof. exact uskew_dot. Qed.
Print Assumptions C15_skew_contraction.
Theorem C15_trace : forall v, I1 v = tr2 (usym v).
Proof. intros. symmetry. apply usym_I1. Qed.
Print Assumptions C15_trace.
Theorem C15_second_invariant : forall v, I2 v = / 2 * (tr2 (usym v) * tr2 (usym v) - ddot22 (usym v) (usym v)).
Proof. exact I2_spec. Qed.
Print Assumptions C15_second_invariant.
(** the deviator is the orthogonal projection on traceless tensors *)
Theorem C15_deviator_projection : forall v w,
  tr2 (usym (dev_vec v)) = 0 /\ veq 6 (dev_vec (dev_vec v)) (dev_vec v) /\
  (tr2 (usym v) = 0 -> veq 6 (dev_vec v) v) /\ dot 6 (dev_vec v) w = dot 6 v (dev_vec w).
Proof.
  intros v w. split; [rewrite usym_I1; apply dev_traceless|]. split; [apply dev_idem|]. split.
  - intros H. apply dev_fixes. rewrite <- usym_I1. exact H.
  - unfold dot, dev_vec. simpl. field.
Qed.
Print Assumptions C15_deviator_projection.
(** a 6x6 Mandel matrix acts as its fourth order tensor, and the conversion is a bijection
    onto the tensors with both minor symmetries *)
Theorem C15_fourth_order_action : forall M v i j, (i < 3)%nat -> (j < 3)%nat ->
  t2 (usym (mv 6 (flat 6 M) v)) i j = ddot42 (mandel2full M) (usym v) i j.
Proof. intros. symmetry. apply mandel_apply; assumption. Qed.
Print Assumptions C15_fourth_order_action.
Theorem C15_fourth_order_round_trip : forall M A,
  veq 36 (full2mandel (mandel2full M)) M /\ sym_first (mandel2full M) /\ sym_second (mandel2full M) /\
  (sym_first A -> sym_second A -> forall i j k l, (i < 3)%nat -> (j < 3)%nat -> (k < 3)%nat -> (l < 3)%nat ->
     t4 (mandel2full (full2mandel A)) i j k l = t4 A i j k l).
Proof.
  intros M A. split; [apply mandel_round|]. split; [apply mandel_minor1|]. split; [apply mandel_minor2|].
  intros H1 H2. apply mandel_full_round; assumption.
Qed.
Print Assumptions C15_fourth_order_round_trip.
Theorem C15_fourth_order_product : forall A B i j k l, (i < 3)%nat -> (j < 3)%nat -> (k < 3)%nat -> (l < 3)%nat ->
  t4 (mandel2full (fun p => mm 6 (flat 6 A) (flat 6 B) (p / 6)%nat (p mod 6)%nat)) i j k l = ddot44 (mandel2full A) (mandel2full B) i j k l.
Proof. exact mandel_mul. Qed.
Print Assumptions C15_fourth_order_product.
(** conversions between a 6x3 matrix and a tensor symmetric in its first and skew in its
    second pair, and between a 3x6 matrix and a skew-symmetric one *)
Theorem C15_symskew_round_trip : forall M A,
  veq 18 (full2skew (skew2full M)) M /\ sym_first (skew2full M) /\ skew_second (skew2full M) /\
  (sym_first A -> skew_second A -> forall i j k l, (i < 3)%nat -> (j < 3)%nat -> (k < 3)%nat -> (l < 3)%nat ->
     t4 (skew2full (full2skew A)) i j k l = t4 A i j k l).
Proof.
  intros M A. split; [apply skew_round|]. split; [apply skew2full_sym|]. split; [apply skew2full_skew|].
  intros H1 H2. apply skew_full_round; assumption.
Qed.
Print Assumptions C15_symskew_round_trip.
Theorem C15_skewsym_round_trip : forall M A,
  veq 18 (full2wws (wws2full M)) M /\ skew_first (wws2full M) /\ sym_second (wws2full M) /\
  (skew_first A -> sym_second A -> forall i j k l, (i < 3)%nat -> (j < 3)%nat -> (k < 3)%nat -> (l < 3)%nat ->
     t4 (wws2full (full2wws A)) i j k l = t4 A i j k l).
Proof.
  intros M A. split; [apply wws_round|]. split; [apply wws2full_skew|]. split; [apply wws2full_sym|].
  intros H1 H2. apply wws_full_round; assumption.
Qed.
Print Assumptions C15_skewsym_round_trip.
Theorem C15_skewsym_action : forall M v i j, (i < 3)%nat -> (j < 3)%nat ->
  t2 (uskew (mv 6 (flat 6 M) v)) i j = ddot42 (wws2full M) (usym v) i j.
Proof. intros. symmetry. apply wws2full_apply; assumption. Qed.
Print Assumptions C15_skewsym_action.
(** the 6x3 matrix product is half of the contraction with the skew tensor *)
Theorem C15_symskew_action_half : forall M w i j, (i < 3)%nat -> (j < 3)%nat ->
  2 * t2 (usym (mv 3 (flat 3 M) w)) i j = ddot42 (skew2full M) (uskew w) i j.
Proof. intros. symmetry. apply skew2full_apply; assumption. Qed.
Print Assumptions C15_symskew_action_half.
Example C15_demo : let A := fun k => nth k [1; 2; 3; 2; 4; 5; 3; 5; 6] 0 in
  is_sym2 A /\ ddot22 A A = 1 + 4 + 9 + 4 + 16 + 25 + 9 + 25 + 36 /\ dot 6 (sym A) (sym A) = 129.
Proof.
  intros A. assert (H : is_sym2 A). { intros i j Hi Hj. cases3 i Hi; cases3 j Hj; reflexivity. }
  split; [exact H|]. rewrite (C15_isometry A A H H). unfold A. tab. cbv [nth]. split; ring.
Qed.

(** ** C45: the special products used by the crystal plasticity kinematics *)
Theorem C45_symsym_skew_commutator : forall M W k l s t, (k < 3)%nat -> (l < 3)%nat -> (s < 3)%nat -> (t < 3)%nat ->
  t4 (mandel2full (SymSymR4SkewmSkewSymR4SymR4 M W)) k l s t =
  rsum 3 (fun m => t4 (mandel2full M) k m s t * t2 (uskew W) m l) - rsum 3 (fun m => t2 (uskew W) k m * t4 (mandel2full M) m l s t).
Proof. exact symsymskew_spec. Qed.
Print Assumptions C45_symsym_skew_commutator.
Theorem C45_sym_skewsym_commutator : forall D M k l s t, (k < 3)%nat -> (l < 3)%nat -> (s < 3)%nat -> (t < 3)%nat ->
  t4 (mandel2full (SymSkewR4SymmSkewSymR4SymR4 D M)) k l s t =
  rsum 3 (fun m => t2 (usym D) k m * t4 (wws2full M) m l s t) - rsum 3 (fun m => t4 (wws2full M) k m s t * t2 (usym D) m l).
Proof. exact symskewsym_spec. Qed.
Print Assumptions C45_sym_skewsym_commutator.
Theorem C45_special_symsym_sym : forall D M i j y z, (i < 3)%nat -> (j < 3)%nat -> (y < 3)%nat -> (z < 3)%nat ->
  t4 (skew2full (SpecialSymSymR4Sym D M)) i j y z =
  rsum 3 (fun k => t4 (mandel2full M) i j k z * t2 (usym D) k y) - rsum 3 (fun l => t4 (mandel2full M) i j y l * t2 (usym D) z l).
Proof. exact special_spec. Qed.
Print Assumptions C45_special_symsym_sym.
Theorem C45_transform_fourth : forall D W d w i j, (i < 3)%nat -> (j < 3)%nat ->
  ddot42 (transform_fourth D W) (vadd (usym d) (uskew w)) i j = t2 (usym (vadd (mv 6 (flat 6 D) d) (mv 3 (flat 3 W) w))) i j.
Proof. exact transform_fourth_apply. Qed.
Print Assumptions C45_transform_fourth.

(** ** C48 *)
Theorem C48_gcd : forall a b, exists g, gcd a b = Some g /\
  ((g | a) /\ (g | b) /\ forall d, (d | a) -> (d | b) -> (d | g))%Z.
Proof.
  intros a b. destruct (gcd_ok a b) as (g & E & A). exists g. split; [exact E|]. split; [|split].
  - apply Z.divide_abs_l. rewrite A. apply Z.gcd_divide_l.
  - apply Z.divide_abs_l. rewrite A. apply Z.gcd_divide_r.
  - intros d Ha Hb. apply Z.divide_abs_r. rewrite A. apply Z.gcd_greatest; assumption.
Qed.
Print Assumptions C48_gcd.
Theorem C48_common_gcd : forall l, l <> [] -> exists g, common_gcd l = Some g /\
  (List.Forall (fun x => (g | x)) l /\ (forall d, List.Forall (fun x => (d | x)) l -> (d | g)))%Z.
Proof. exact common_gcd_ok. Qed.
Print Assumptions C48_common_gcd.
(** reduce_gcd keeps the direction (positive factor) and leaves no common factor *)
Theorem C48_reduce_primitive : forall l, (exists x, In x l /\ x <> 0%Z) -> exists k r, (0 < k)%Z /\ reduce_gcd l = Some r /\
  l = map (Z.mul k) r /\ (forall d, List.Forall (fun x => (d | x)) r -> (d | 1))%Z.
Proof. exact reduce_ok. Qed.
Print Assumptions C48_reduce_primitive.
(** finding: the zero vector has no reduction, the code divides by zero *)
Theorem C48_reduce_zero_refuted : forall l, l <> [] -> List.Forall (fun x => x = 0%Z) l -> reduce_gcd l = None.
Proof. exact reduce_zero. Qed.
Print Assumptions C48_reduce_zero_refuted.
Example C48_demo : reduce_gcd [-4; 6; 0; -8]%Z = Some [-2; 3; 0; -4]%Z /\ gcd (-12) 18 = Some 6%Z.
Proof. split; reflexivity. Qed.

(** ** C50 *)
Theorem C50_round_trip : forall a k, k = "radians"%string \/ k = "degrees"%string ->
  (exists b, convert_angle a k = Some b /\ cast_angle b k = Some a) /\
  (exists b, cast_angle a k = Some b /\ convert_angle b k = Some a).
Proof.
  intros a k [-> | ->]; unfold convert_angle, cast_angle; simpl; pose proof PI_RGT_0; split; eexists; split; try reflexivity; f_equal; field; lra.
Qed.
Print Assumptions C50_round_trip.
Theorem C50_unknown_rejected : forall a k, k <> "radians"%string -> k <> "degrees"%string ->
  convert_angle a k = None /\ cast_angle a k = None.
Proof.
  intros a k H1 H2. unfold convert_angle, cast_angle.
  destruct (String.eqb_spec "radians" k) as [E|_]; [symmetry in E; contradiction|].
  destruct (String.eqb_spec "degrees" k) as [E|_]; [symmetry in E; contradiction|]. split; reflexivity.
Qed.
Print Assumptions C50_unknown_rejected.
(** 180 degrees is a half turn *)
Theorem C50_degrees_scale : forall a, convert_angle a "degrees" = Some (a * (PI / 180)) /\ convert_angle a "radians" = Some a.
Proof. intros a. unfold convert_angle; simpl. split; [f_equal; field | reflexivity]. Qed.
Print Assumptions C50_degrees_scale.
Example C50_demo : convert_angle 90 "degrees" = Some (PI / 2) /\ convert_angle 90 "gradians" = None.
Proof. unfold convert_angle; simpl. split; [f_equal; field | reflexivity]. Qed.
