(** Proofs about the Mandel/skew helpers, gcd and angles. *)
From Coq Require Import String ZArith.
From Verif Require Import Base.
From Verif Require Import Diff.
From Verif Require Import NemlMathModel.
From Verif Require Import NemlMathSpec.

Lemma r2_pos : 0 < r2.
Proof. unfold r2. apply sqrt_lt_R0. lra. Qed.
Lemma r2_sqr : r2 * r2 = 2.
Proof. unfold r2. apply sqrt_sqrt. lra. Qed.
Lemma r2_inv : / r2 = r2 / 2.
Proof. pose proof r2_pos. pose proof r2_sqr. field_simplify_eq; [|lra]. simpl. lra. Qed.
Lemma div_r2 : forall x, x / r2 = x * r2 / 2.
Proof. intros x. unfold Rdiv at 1. rewrite r2_inv. field. Qed.

(** finite case analysis *)
Ltac cases3 i H := destruct i as [|[|[|i]]]; [| | |exfalso; lia]; clear H.
Ltac cases6 i H := destruct i as [|[|[|[|[|[|i]]]]]]; [| | | | | |exfalso; lia]; clear H.
Ltac cases9 i H := destruct i as [|[|[|[|[|[|[|[|[|i]]]]]]]]]; [| | | | | | | | |exfalso; lia]; clear H.
Ltac idx := repeat match goal with |- context [?f (?a)%nat] =>
    match type of f with vec => idtac | nat -> R => idtac end;
    let n := eval vm_compute in a in progress change a with n end.
(** ring modulo r2*r2 = 2 *)
Ltac r2ring := rewrite ?div_r2; first [ring [r2_sqr] | field [r2_sqr]].

Lemma r2ring_test a b : a / r2 * (b / r2) + a * b / 2 = a * b.
Proof. r2ring. Qed.

Ltac tab := cbv [t2 t4 flat ddot42 ddot22 ddot44 tr2 mul2 rsum Nat.add Nat.mul Nat.ltb Nat.leb Nat.eqb delta mm mv dot
  sym usym skew uskew full2mandel mandel2full full2skew skew2full full2wws wws2full
  SymSymR4SkewmSkewSymR4SymR4 SymSkewR4SymmSkewSymR4SymR4 SpecialSymSymR4Sym transform_fourth
  truesdell_tangent_outer truesdell_mat truesdell_rhs dev_vec I1 I2].

(** ** Second order *)
Lemma sym_usym : forall v, veq 6 (sym (usym v)) v.
Proof. intros v i Hi. cases6 i Hi; tab; r2ring. Qed.
Lemma usym_is_sym : forall v, is_sym2 (usym v).
Proof. intros v i j Hi Hj. cases3 i Hi; cases3 j Hj; reflexivity. Qed.
Lemma usym_sym : forall A, is_sym2 A -> forall i j, (i < 3)%nat -> (j < 3)%nat -> t2 (usym (sym A)) i j = t2 A i j.
Proof.
  intros A H i j Hi Hj.
  pose proof (H 0 1 ltac:(lia) ltac:(lia))%nat as H01. pose proof (H 0 2 ltac:(lia) ltac:(lia))%nat as H02.
  pose proof (H 1 2 ltac:(lia) ltac:(lia))%nat as H12. revert H01 H02 H12. clear H. cases3 i Hi; cases3 j Hj; tab; intros H01 H02 H12;
    rewrite <- ?H01, <- ?H02, <- ?H12; r2ring.
Qed.
Lemma skew_uskew : forall v, veq 3 (skew (uskew v)) v.
Proof. intros v i Hi. cases3 i Hi; tab; r2ring. Qed.
Lemma uskew_is_skew : forall v, is_skew2 (uskew v).
Proof. intros v i j Hi Hj. cases3 i Hi; cases3 j Hj; tab; ring. Qed.
Lemma uskew_skew : forall A, is_skew2 A -> forall i j, (i < 3)%nat -> (j < 3)%nat -> t2 (uskew (skew A)) i j = t2 A i j.
Proof.
  intros A H i j Hi Hj. pose proof (H i j Hi Hj) as E. revert E. 
  pose proof (H i i Hi Hi) as D. revert D. clear H. cases3 i Hi; cases3 j Hj; tab; intros; lra.
Qed.
Lemma usym_dot : forall v w, ddot22 (usym v) (usym w) = dot 6 v w.
Proof. intros. tab. r2ring. Qed.
Lemma sym_dot : forall A B, is_sym2 A -> is_sym2 B -> dot 6 (sym A) (sym B) = ddot22 A B.
Proof.
  intros A B HA HB. rewrite <- usym_dot. unfold ddot22. apply rsum_ext. intros i Hi. apply rsum_ext. intros j Hj.
  rewrite !usym_sym by assumption. reflexivity.
Qed.
Lemma usym_I1 : forall v, tr2 (usym v) = I1 v.
Proof. intros. tab. ring. Qed.
Lemma I2_spec : forall v, I2 v = / 2 * (tr2 (usym v) * tr2 (usym v) - ddot22 (usym v) (usym v)).
Proof. intros. tab. r2ring. Qed.
Lemma uskew_dot : forall v w, ddot22 (uskew v) (uskew w) = 2 * dot 3 v w.
Proof. intros. tab. ring. Qed.
Lemma dev_traceless : forall v, I1 (dev_vec v) = 0.
Proof. intros. tab. field. Qed.
Lemma dev_idem : forall v, veq 6 (dev_vec (dev_vec v)) (dev_vec v).
Proof. intros v i Hi. cases6 i Hi; tab; field. Qed.
Lemma dev_fixes : forall v, I1 v = 0 -> veq 6 (dev_vec v) v.
Proof. intros v H i Hi. unfold I1 in H. cases6 i Hi; tab; try reflexivity; rewrite H; field. Qed.
Lemma dev_orth : forall v w, dot 6 (dev_vec v) w = dot 6 (dev_vec v) (dev_vec w).
Proof. intros. tab. field. Qed.

(** ** Fourth order *)
Lemma mandel_apply : forall M v i j, (i < 3)%nat -> (j < 3)%nat ->
  ddot42 (mandel2full M) (usym v) i j = t2 (usym (mv 6 (flat 6 M) v)) i j.
Proof. intros M v i j Hi Hj. cases3 i Hi; cases3 j Hj; tab; r2ring. Qed.
Lemma mandel_round : forall M, veq 36 (full2mandel (mandel2full M)) M.
Proof.
  intros M i Hi. do 36 (destruct i as [|i]; [tab; r2ring|]). lia.
Qed.
Lemma mandel_minor1 : forall M, sym_first (mandel2full M).
Proof. intros M i j k l Hi Hj Hk Hl. cases3 i Hi; cases3 j Hj; cases3 k Hk; cases3 l Hl; reflexivity. Qed.
Lemma mandel_minor2 : forall M, sym_second (mandel2full M).
Proof. intros M i j k l Hi Hj Hk Hl. cases3 i Hi; cases3 j Hj; cases3 k Hk; cases3 l Hl; reflexivity. Qed.
Lemma mandel_full_round : forall A, sym_first A -> sym_second A -> forall i j k l, (i < 3)%nat -> (j < 3)%nat -> (k < 3)%nat -> (l < 3)%nat ->
  t4 (mandel2full (full2mandel A)) i j k l = t4 A i j k l.
Proof.
  intros A H1 H2 i j k l Hi Hj Hk Hl.
  assert (E1 : t4 A i j k l = t4 A j i k l) by (apply H1; assumption).
  assert (E2 : t4 A i j k l = t4 A i j l k) by (apply H2; assumption).
  assert (E3 : t4 A i j k l = t4 A j i l k) by (rewrite E1; apply H2; assumption).
  revert E1 E2 E3. clear H1 H2.
  cases3 i Hi; cases3 j Hj; cases3 k Hk; cases3 l Hl; tab; intros E1 E2 E3;
    first [rewrite ?div_r2; ring [r2_sqr] | rewrite E1; field [r2_sqr] | rewrite E2; field [r2_sqr] | rewrite E3; field [r2_sqr] | field [r2_sqr]].
Qed.
Lemma mandel_mul : forall A B i j k l, (i < 3)%nat -> (j < 3)%nat -> (k < 3)%nat -> (l < 3)%nat ->
  t4 (mandel2full (fun p => mm 6 (flat 6 A) (flat 6 B) (p / 6)%nat (p mod 6)%nat)) i j k l = ddot44 (mandel2full A) (mandel2full B) i j k l.
Proof.
  intros A B i j k l Hi Hj Hk Hl.
  cases3 i Hi; cases3 j Hj; cases3 k Hk; cases3 l Hl; tab; cbv [Nat.div Nat.modulo Nat.divmod fst snd Nat.sub]; r2ring.
Qed.
