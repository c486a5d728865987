(** An orientation built from a rotation matrix represents that matrix. *)
From Coq Require Import String ZArith.
From Verif Require Import Base.
From Verif Require Import NemlMathModel.
From Verif Require Import NemlMathSpec.
From Verif Require Import NemlMathProofs.
From Verif Require Import RotModel.
From Verif Require Import RotSpec.
From Verif Require Import RotProofs.

(** products of x / S with x' / S, and of x / S with S / 4 *)
Lemma over_S : forall S D x y, S * S = 4 * D -> D <> 0 -> x / S * (y / S) = x * y / (4 * D).
Proof.
  intros S D x y H N. assert (S <> 0) by (intros ->; lra). rewrite <- H. field. assumption.
Qed.
Lemma over_S4 : forall S x, S <> 0 -> x / S * (/ 4 * S) = x / 4.
Proof. intros. field. assumption. Qed.
Lemma over_S44 : forall S D, S * S = 4 * D -> / 4 * S * (/ 4 * S) = D / 4.
Proof. intros S D H. replace (/ 4 * S * (/ 4 * S)) with (S * S / 16) by field. rewrite H. field. Qed.
Lemma over_4S : forall S x, S <> 0 -> / 4 * S * (x / S) = x / 4.
Proof. intros. field. assumption. Qed.
Lemma diag_eq : forall D X Y m, D <> 0 -> X + Y = 2 * D * (1 - m) -> 1 - 2 * (X / (4 * D)) - 2 * (Y / (4 * D)) = m.
Proof. intros D X Y m N E. transitivity (1 - (X + Y) / (2 * D)); [field; exact N|]. rewrite E. field. exact N. Qed.
Lemma diag_eq1 : forall D X m, D <> 0 -> X = 2 * D * (1 - m) - D * D -> 1 - 2 * (D / 4) - 2 * (X / (4 * D)) = m.
Proof. intros D X m N E. rewrite E. field. exact N. Qed.
Lemma diag_eq2 : forall D X m, D <> 0 -> X = 2 * D * (1 - m) - D * D -> 1 - 2 * (X / (4 * D)) - 2 * (D / 4) = m.
Proof. intros D X m N E. rewrite E. field. exact N. Qed.
Lemma off_minus : forall D X z m, D <> 0 -> X = D * (2 * m + z) -> 2 * (X / (4 * D) - z / 4) = m.
Proof. intros D X z m N E. rewrite E. field. exact N. Qed.
Lemma off_plus : forall D X z m, D <> 0 -> X = D * (2 * m - z) -> 2 * (X / (4 * D) + z / 4) = m.
Proof. intros D X z m N E. rewrite E. field. exact N. Qed.
Lemma off_minus' : forall D X z m, D <> 0 -> X = D * (z - 2 * m) -> 2 * (z / 4 - X / (4 * D)) = m.
Proof. intros D X z m N E. rewrite E. field. exact N. Qed.
Lemma off_plus' : forall D X z m, D <> 0 -> X = D * (2 * m - z) -> 2 * (z / 4 + X / (4 * D)) = m.
Proof. intros D X z m N E. rewrite E. field. exact N. Qed.

Lemma rot_tr : forall a b c d e f g h k : R,
  a*a+b*b+c*c = 1 -> d*d+e*e+f*f = 1 -> g*g+h*h+k*k = 1 -> a*d+b*e+c*f = 0 -> a*g+b*h+c*k = 0 -> d*g+e*h+f*k = 0 ->
  a*(e*k-f*h) - b*(d*k-f*g) + c*(d*h-e*g) = 1 -> -1 <= a + e + k.
Proof.
  intros a b c d e f g h k R1 R2 R3 O12 O13 O23 D.
  destruct (rot_cof a b c d e f g h k R1 R2 R3 O12 O13 O23 D) as [[A [B C]] [[D' [E F]] [G [H K]]]].
  assert (X : (h-f)*(h-f) + (c-g)*(c-g) + (d-b)*(d-b) = (1 + (a+e+k)) * (3 - (a+e+k))) by lra.
  assert (a <= 1) by nra. assert (e <= 1) by nra. assert (k <= 1) by nra.
  assert (P : 0 <= (1 + (a+e+k)) * (3 - (a+e+k))).
  { rewrite <- X. pose proof (Rle_0_sqr (h-f)). pose proof (Rle_0_sqr (c-g)). pose proof (Rle_0_sqr (d-b)). unfold Rsqr in *. lra. }
  destruct (Rle_dec (-1) (a+e+k)); [assumption|]. exfalso. nra.
Qed.

Ltac solve_branch S D N HS HD :=
  cbv [to_matrix q0 q1 q2 q3];
  rewrite ?(over_S S D) by assumption; rewrite ?(over_S4 S) by exact N; rewrite ?(over_4S S) by exact N; rewrite ?(over_S44 S D) by exact HS.

Lemma setMatrix_rot : forall M, is_rot (t2 M) ->
  unitq (setMatrix M) /\ meq3 (t2 (to_matrix (setMatrix M))) (t2 M).
Proof.
  intros M [H Dt]. unfold setMatrix. cbv [t2 Nat.add Nat.mul].
  pose proof (H 0 0 ltac:(lia) ltac:(lia))%nat as R1. pose proof (H 1 1 ltac:(lia) ltac:(lia))%nat as R2.
  pose proof (H 2 2 ltac:(lia) ltac:(lia))%nat as R3. pose proof (H 0 1 ltac:(lia) ltac:(lia))%nat as O12.
  pose proof (H 0 2 ltac:(lia) ltac:(lia))%nat as O13. pose proof (H 1 2 ltac:(lia) ltac:(lia))%nat as O23. clear H.
  revert R1 R2 R3 O12 O13 O23 Dt. qtab.
  assert (G : forall a b c d e f g h k, let q :=
      (if Rlt_dec 0 (a + e + k) then let S := sqrt (1 + (a + e + k)) * 2 in Quat (/ 4 * S) ((h - f) / S) ((c - g) / S) ((d - b) / S)
       else if (if Rlt_dec e a then if Rlt_dec k a then true else false else false) then
         let S := sqrt (1 + a - e - k) * 2 in Quat ((h - f) / S) (/ 4 * S) ((b + d) / S) ((c + g) / S)
       else if Rlt_dec k e then
         let S := sqrt (1 + e - a - k) * 2 in Quat ((c - g) / S) ((b + d) / S) (/ 4 * S) ((f + h) / S)
       else let S := sqrt (1 + k - a - e) * 2 in Quat ((d - b) / S) ((c + g) / S) ((f + h) / S) (/ 4 * S)) in
    a*a+b*b+c*c = 1 -> d*d+e*e+f*f = 1 -> g*g+h*h+k*k = 1 -> a*d+b*e+c*f = 0 -> a*g+b*h+c*k = 0 -> d*g+e*h+f*k = 0 ->
    a*(e*k-f*h) - b*(d*k-f*g) + c*(d*h-e*g) = 1 ->
    unitq q /\ (to_matrix q 0%nat = a /\ to_matrix q 1%nat = b /\ to_matrix q 2%nat = c) /\
    (to_matrix q 3%nat = d /\ to_matrix q 4%nat = e /\ to_matrix q 5%nat = f) /\
    (to_matrix q 6%nat = g /\ to_matrix q 7%nat = h /\ to_matrix q 8%nat = k)).
  2:{ intros R1 R2 R3 O12 O13 O23 Dt.
      specialize (G (M 0%nat) (M 1%nat) (M 2%nat) (M 3%nat) (M 4%nat) (M 5%nat) (M 6%nat) (M 7%nat) (M 8%nat)). cbv zeta in G.
      destruct G as [U [G0 [G1 G2]]]; try lra. split; [exact U|].
      intros i j Hi Hj. decompose [and] G0. decompose [and] G1. decompose [and] G2. clear G0 G1 G2 U R1 R2 R3 O12 O13 O23 Dt.
      cases3 i Hi; cases3 j Hj; cbv [t2 Nat.add Nat.mul]; assumption. }
  clear M. intros a b c d e f g h k q R1 R2 R3 O12 O13 O23 Dt.
  destruct (rot_cof a b c d e f g h k R1 R2 R3 O12 O13 O23 Dt) as [[A [B C]] [[D' [E F]] [G [H K]]]].
  destruct (rot_cols a b c d e f g h k R1 R2 R3 O12 O13 O23 Dt) as [C1 [C2 [C3 [P12 [P13 P23]]]]].
  pose proof (rot_tr a b c d e f g h k R1 R2 R3 O12 O13 O23 Dt) as TR. clear Dt.
  unfold q. clear q. destruct (Rlt_dec 0 (a + e + k)) as [T|T].
  - set (D := 1 + (a + e + k)). set (S := sqrt D * 2). cbv zeta.
    assert (HD0 : D <> 0) by (unfold D; lra).
    assert (HS : S * S = 4 * D). { unfold S. replace (sqrt D * 2 * (sqrt D * 2)) with (4 * (sqrt D * sqrt D)) by ring. rewrite sqrt_sqrt by (unfold D; lra). reflexivity. }
    assert (N : S <> 0) by (intros Z; rewrite Z in HS; apply HD0; lra).
    clearbody S. repeat split; unfold unitq; solve_branch S D N HS HD0.
    + apply (Rmult_eq_reg_r (4 * D)); [|lra]. transitivity (D * D + ((h-f)*(h-f) + (c-g)*(c-g) + (d-b)*(d-b))); [field; exact HD0|]. unfold D. lra.
    + apply diag_eq; [exact HD0|unfold D; lra].
    + apply off_minus; [exact HD0|unfold D; lra].
    + apply off_plus; [exact HD0|unfold D; lra].
    + apply off_plus; [exact HD0|unfold D; lra].
    + apply diag_eq; [exact HD0|unfold D; lra].
    + apply off_minus; [exact HD0|unfold D; lra].
    + apply off_minus; [exact HD0|unfold D; lra].
    + apply off_plus; [exact HD0|unfold D; lra].
    + apply diag_eq; [exact HD0|unfold D; lra].
  - assert (W : forall (P : Prop), (e < a -> k < a -> P) -> P -> True) by trivial. clear W.
    destruct (if Rlt_dec e a then if Rlt_dec k a then true else false else false) eqn:BB.
    + assert (e < a /\ k < a) as [L1 L2]. { destruct (Rlt_dec e a); [|discriminate]. destruct (Rlt_dec k a); [|discriminate]. split; assumption. }
      set (D := 1 + a - e - k). set (S := sqrt D * 2). cbv zeta.
      assert (HD1 : 0 < D) by (unfold D; lra). assert (HD0 : D <> 0) by lra.
      assert (HS : S * S = 4 * D). { unfold S. replace (sqrt D * 2 * (sqrt D * 2)) with (4 * (sqrt D * sqrt D)) by ring. rewrite sqrt_sqrt by lra. reflexivity. }
      assert (N : S <> 0) by (intros Z; rewrite Z in HS; apply HD0; lra).
      clearbody S. clear HD1. repeat split; unfold unitq; solve_branch S D N HS HD0.
      * apply (Rmult_eq_reg_r (4 * D)); [|lra]. transitivity (D * D + ((h-f)*(h-f) + (b+d)*(b+d) + (c+g)*(c+g))); [field; exact HD0|]. unfold D. lra.
      * apply diag_eq; [exact HD0|unfold D; lra].
      * apply off_minus'; [exact HD0|unfold D; lra].
      * apply off_plus'; [exact HD0|unfold D; lra].
      * apply off_plus'; [exact HD0|unfold D; lra].
      * apply diag_eq1; [exact HD0|unfold D; lra].
      * apply off_minus; [exact HD0|unfold D; lra].
      * apply off_minus'; [exact HD0|unfold D; lra].
      * apply off_plus; [exact HD0|unfold D; lra].
      * apply diag_eq1; [exact HD0|unfold D; lra].
    + assert (L : ~ (e < a /\ k < a)). { intros [L1 L2]. destruct (Rlt_dec e a); [|contradiction]. destruct (Rlt_dec k a); [discriminate|contradiction]. }
      clear BB. destruct (Rlt_dec k e) as [L3|L3].
      * assert (L4 : a <= e). { destruct (Rle_dec a e); [assumption|]. exfalso. apply L. lra. }
        set (D := 1 + e - a - k). set (S := sqrt D * 2). cbv zeta.
        assert (HD1 : 0 < D) by (unfold D; lra). assert (HD0 : D <> 0) by lra.
        assert (HS : S * S = 4 * D). { unfold S. replace (sqrt D * 2 * (sqrt D * 2)) with (4 * (sqrt D * sqrt D)) by ring. rewrite sqrt_sqrt by lra. reflexivity. }
        assert (N : S <> 0) by (intros Z; rewrite Z in HS; apply HD0; lra).
        clearbody S. clear HD1 L. repeat split; unfold unitq; solve_branch S D N HS HD0.
        -- apply (Rmult_eq_reg_r (4 * D)); [|lra]. transitivity (D * D + ((c-g)*(c-g) + (b+d)*(b+d) + (f+h)*(f+h))); [field; exact HD0|]. unfold D. lra.
        -- apply diag_eq1; [exact HD0|unfold D; lra].
        -- apply off_minus'; [exact HD0|unfold D; lra].
        -- apply off_plus; [exact HD0|unfold D; lra].
        -- apply off_plus'; [exact HD0|unfold D; lra].
        -- apply diag_eq; [exact HD0|unfold D; lra].
        -- apply off_minus'; [exact HD0|unfold D; lra].
        -- apply off_minus; [exact HD0|unfold D; lra].
        -- apply off_plus'; [exact HD0|unfold D; lra].
        -- apply diag_eq2; [exact HD0|unfold D; lra].
      * assert (L4 : a <= k /\ e <= k). { destruct (Rlt_dec e a); [|lra]. destruct (Rlt_dec k a); [exfalso; apply L; lra|lra]. }
        destruct L4 as [L4 L5].
        set (D := 1 + k - a - e). set (S := sqrt D * 2). cbv zeta.
        assert (HD1 : 0 < D) by (unfold D; lra). assert (HD0 : D <> 0) by lra.
        assert (HS : S * S = 4 * D). { unfold S. replace (sqrt D * 2 * (sqrt D * 2)) with (4 * (sqrt D * sqrt D)) by ring. rewrite sqrt_sqrt by lra. reflexivity. }
        assert (N : S <> 0) by (intros Z; rewrite Z in HS; apply HD0; lra).
        clearbody S. clear HD1 L. repeat split; unfold unitq; solve_branch S D N HS HD0.
        -- apply (Rmult_eq_reg_r (4 * D)); [|lra]. transitivity (D * D + ((d-b)*(d-b) + (c+g)*(c+g) + (f+h)*(f+h))); [field; exact HD0|]. unfold D. lra.
        -- apply diag_eq2; [exact HD0|unfold D; lra].
        -- apply off_minus; [exact HD0|unfold D; lra].
        -- apply off_plus'; [exact HD0|unfold D; lra].
        -- apply off_plus; [exact HD0|unfold D; lra].
        -- apply diag_eq2; [exact HD0|unfold D; lra].
        -- apply off_minus'; [exact HD0|unfold D; lra].
        -- apply off_minus'; [exact HD0|unfold D; lra].
        -- apply off_plus'; [exact HD0|unfold D; lra].
        -- apply diag_eq; [exact HD0|unfold D; lra].
Qed.
