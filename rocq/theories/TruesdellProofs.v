(** Proofs about the skew conversions, mixed products and the Truesdell matrices. *)
From Coq Require Import String ZArith.
From Verif Require Import Base.
From Verif Require Import Diff.
From Verif Require Import NemlMathModel.
From Verif Require Import NemlMathSpec.
From Verif Require Import NemlMathProofs.

Ltac ijkl := intros; match goal with Hi : (?i < 3)%nat, Hj : (?j < 3)%nat, Hk : (?k < 3)%nat, Hl : (?l < 3)%nat |- _ =>
  cases3 i Hi; cases3 j Hj; cases3 k Hk; cases3 l Hl end.

Lemma skew_round : forall M, veq 18 (full2skew (skew2full M)) M.
Proof. intros M i Hi. do 18 (destruct i as [|i]; [tab; r2ring|]). lia. Qed.
Lemma skew2full_sym : forall M, sym_first (skew2full M).
Proof. intros M i j k l Hi Hj Hk Hl. cases3 i Hi; cases3 j Hj; cases3 k Hk; cases3 l Hl; tab; first [reflexivity | field]. Qed.
Lemma skew2full_skew : forall M, skew_second (skew2full M).
Proof. intros M i j k l Hi Hj Hk Hl. cases3 i Hi; cases3 j Hj; cases3 k Hk; cases3 l Hl; tab; first [reflexivity | field]. Qed.
Lemma skew_full_round : forall A, sym_first A -> skew_second A -> forall i j k l, (i < 3)%nat -> (j < 3)%nat -> (k < 3)%nat -> (l < 3)%nat ->
  t4 (skew2full (full2skew A)) i j k l = t4 A i j k l.
Proof.
  intros A H1 H2 i j k l Hi Hj Hk Hl.
  assert (E0 : k = l -> t4 A i j k l = 0) by (intros ->; pose proof (H2 i j l l Hi Hj Hl Hl); lra).
  assert (E1 : t4 A i j k l = t4 A j i k l) by (apply H1; assumption).
  assert (E2 : t4 A i j k l = - t4 A i j l k) by (apply H2; assumption).
  assert (E3 : t4 A i j k l = - t4 A j i l k) by (rewrite E1; apply H2; assumption).
  revert E0 E1 E2 E3. clear H1 H2.
  cases3 i Hi; cases3 j Hj; cases3 k Hk; cases3 l Hl; tab; intros E0 E1 E2 E3;
    try (specialize (E0 eq_refl));
    first [rewrite ?div_r2; ring [r2_sqr] | rewrite E0; ring | rewrite E1; field [r2_sqr] | rewrite E2; field [r2_sqr] | rewrite E3; field [r2_sqr]].
Qed.
Lemma skew2full_apply : forall M w i j, (i < 3)%nat -> (j < 3)%nat ->
  ddot42 (skew2full M) (uskew w) i j = 2 * t2 (usym (mv 3 (flat 3 M) w)) i j.
Proof. intros M w i j Hi Hj. cases3 i Hi; cases3 j Hj; tab; r2ring. Qed.
Lemma wws_round : forall M, veq 18 (full2wws (wws2full M)) M.
Proof. intros M i Hi. do 18 (destruct i as [|i]; [tab; r2ring|]). lia. Qed.
Lemma wws2full_skew : forall M, skew_first (wws2full M).
Proof. intros M i j k l Hi Hj Hk Hl. cases3 i Hi; cases3 j Hj; cases3 k Hk; cases3 l Hl; tab; first [reflexivity | field]. Qed.
Lemma wws2full_sym : forall M, sym_second (wws2full M).
Proof. intros M i j k l Hi Hj Hk Hl. cases3 i Hi; cases3 j Hj; cases3 k Hk; cases3 l Hl; tab; first [reflexivity | field]. Qed.
Lemma wws_full_round : forall A, skew_first A -> sym_second A -> forall i j k l, (i < 3)%nat -> (j < 3)%nat -> (k < 3)%nat -> (l < 3)%nat ->
  t4 (wws2full (full2wws A)) i j k l = t4 A i j k l.
Proof.
  intros A H1 H2 i j k l Hi Hj Hk Hl.
  assert (E0 : i = j -> t4 A i j k l = 0) by (intros ->; pose proof (H1 j j k l Hj Hj Hk Hl); lra).
  assert (E1 : t4 A i j k l = - t4 A j i k l) by (apply H1; assumption).
  assert (E2 : t4 A i j k l = t4 A i j l k) by (apply H2; assumption).
  assert (E3 : t4 A i j k l = - t4 A j i l k) by (rewrite E2; apply H1; assumption).
  revert E0 E1 E2 E3. clear H1 H2.
  cases3 i Hi; cases3 j Hj; cases3 k Hk; cases3 l Hl; tab; intros E0 E1 E2 E3;
    try (specialize (E0 eq_refl));
    first [rewrite ?div_r2; ring [r2_sqr] | rewrite E0; ring | rewrite E1; field [r2_sqr] | rewrite E2; field [r2_sqr] | rewrite E3; field [r2_sqr]].
Qed.
Lemma wws2full_apply : forall M v i j, (i < 3)%nat -> (j < 3)%nat ->
  ddot42 (wws2full M) (usym v) i j = t2 (uskew (mv 6 (flat 6 M) v)) i j.
Proof. intros M v i j Hi Hj. cases3 i Hi; cases3 j Hj; tab; r2ring. Qed.
Lemma transform_fourth_apply : forall D W d w i j, (i < 3)%nat -> (j < 3)%nat ->
  ddot42 (transform_fourth D W) (vadd (usym d) (uskew w)) i j = t2 (usym (vadd (mv 6 (flat 6 D) d) (mv 3 (flat 3 W) w))) i j.
Proof. intros D W d w i j Hi Hj. cases3 i Hi; cases3 j Hj; tab; cbv [vadd]; tab; r2ring. Qed.

(** ** Mixed products *)
Lemma symsymskew_spec : forall M W k l s t, (k < 3)%nat -> (l < 3)%nat -> (s < 3)%nat -> (t < 3)%nat ->
  t4 (mandel2full (SymSymR4SkewmSkewSymR4SymR4 M W)) k l s t =
  rsum 3 (fun m => t4 (mandel2full M) k m s t * t2 (uskew W) m l) - rsum 3 (fun m => t2 (uskew W) k m * t4 (mandel2full M) m l s t).
Proof. intros M W k l s t Hk Hl Hs Ht. cases3 k Hk; cases3 l Hl; cases3 s Hs; cases3 t Ht; tab; r2ring. Qed.
Lemma symskewsym_spec : forall D M k l s t, (k < 3)%nat -> (l < 3)%nat -> (s < 3)%nat -> (t < 3)%nat ->
  t4 (mandel2full (SymSkewR4SymmSkewSymR4SymR4 D M)) k l s t =
  rsum 3 (fun m => t2 (usym D) k m * t4 (wws2full M) m l s t) - rsum 3 (fun m => t4 (wws2full M) k m s t * t2 (usym D) m l).
Proof. intros D M k l s t Hk Hl Hs Ht. cases3 k Hk; cases3 l Hl; cases3 s Hs; cases3 t Ht; tab; r2ring. Qed.
Lemma special_spec : forall D M i j y z, (i < 3)%nat -> (j < 3)%nat -> (y < 3)%nat -> (z < 3)%nat ->
  t4 (skew2full (SpecialSymSymR4Sym D M)) i j y z =
  rsum 3 (fun k => t4 (mandel2full M) i j k z * t2 (usym D) k y) - rsum 3 (fun l => t4 (mandel2full M) i j y l * t2 (usym D) z l).
Proof. intros D M i j y z Hi Hj Hy Hz. cases3 i Hi; cases3 j Hj; cases3 y Hy; cases3 z Hz; tab; r2ring. Qed.

(** ** The Truesdell rate *)
Definition Lof (D W : vec) (i j : nat) : R := t2 (usym D) i j + t2 (uskew W) i j.
Definition trace (A : nat -> nat -> R) : R := A 0%nat 0%nat + A 1%nat 1%nat + A 2%nat 2%nat.
(** J[X] = X + tr(L) X - L X - X L^T *)
Definition tr_op (L X : nat -> nat -> R) (i j : nat) : R :=
  X i j + trace L * X i j - mul2 L X i j - mul2 X (fun a b => L b a) i j.

Lemma truesdell_mat_spec : forall D W x i j, (i < 3)%nat -> (j < 3)%nat ->
  rsum 9 (fun q => truesdell_mat D W (9 * (3 * i + j) + q)%nat * x q) = tr_op (Lof D W) (t2 x) i j.
Proof. intros D W x i j Hi Hj. unfold tr_op, trace, Lof. cases3 i Hi; cases3 j Hj; tab; r2ring. Qed.
Lemma truesdell_rhs_spec : forall D W Sn So i j, (i < 3)%nat -> (j < 3)%nat ->
  t2 (usym (truesdell_rhs D W Sn So)) i j = t2 (usym So) i j + t2 (usym Sn) i j - tr_op (Lof D W) (t2 (usym Sn)) i j.
Proof. intros D W Sn So i j Hi Hj. unfold tr_op, trace, Lof. cases3 i Hi; cases3 j Hj; tab; r2ring. Qed.
Lemma truesdell_outer_spec : forall S d i j, (i < 3)%nat -> (j < 3)%nat ->
  rsum 9 (fun q => truesdell_tangent_outer S (9 * (3 * i + j) + q)%nat * d q) =
  mul2 (t2 d) (t2 (usym S)) i j + mul2 (t2 (usym S)) (fun a b => t2 d b a) i j - trace (t2 d) * t2 (usym S) i j.
Proof. intros S d i j Hi Hj. unfold trace. cases3 i Hi; cases3 j Hj; tab; r2ring. Qed.
