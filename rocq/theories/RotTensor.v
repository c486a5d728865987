(** Rotating tensors (src/math/rotations.cxx, Orientation::apply). *)
From Coq Require Import String ZArith.
From Verif Require Import Base.
From Verif Require Import Diff.
From Verif Require Import NemlMathModel.
From Verif Require Import NemlMathSpec.
From Verif Require Import NemlMathProofs.
From Verif Require Import RotModel.
From Verif Require Import RotSpec.
From Verif Require Import RotProofs.

Lemma apply_2_turn : forall q A, meq3 (t2 (apply_2 q A)) (turn2 (t2 (to_matrix q)) (t2 A)).
Proof.
  intros q A i j Hi Hj. unfold apply_2. cbv zeta. set (M := to_matrix q). clearbody M. cases3 i Hi; cases3 j Hj; qtab; ring.
Qed.
Lemma turn2_ext : forall M N A, meq3 M N -> meq3 (turn2 M A) (turn2 N A).
Proof.
  intros M N A H i j Hi Hj. unfold turn2. apply rsum_ext. intros m Hm. apply rsum_ext. intros n Hn. rewrite !H by assumption. reflexivity.
Qed.
Lemma turn2_ext2 : forall M A B, meq3 A B -> meq3 (turn2 M A) (turn2 M B).
Proof.
  intros M A B H i j Hi Hj. unfold turn2. apply rsum_ext. intros m Hm. apply rsum_ext. intros n Hn. rewrite !H by assumption. reflexivity.
Qed.
Lemma turn2_mul : forall M N A, meq3 (turn2 (mul2 M N) A) (turn2 M (turn2 N A)).
Proof. intros M N A i j Hi Hj. unfold turn2, mul2. cbn [rsum]. ring. Qed.
Lemma apply_2_mul : forall a b A, unitq a -> unitq b -> meq3 (t2 (apply_2 (qmul a b) A)) (t2 (apply_2 a (apply_2 b A))).
Proof.
  intros a b A Ha Hb i j Hi Hj. rewrite !apply_2_turn by assumption.
  rewrite (turn2_ext _ _ (t2 A) (to_matrix_mul a b Ha Hb) i j Hi Hj), turn2_mul by assumption.
  apply turn2_ext2; try assumption. intros k l Hk Hl. symmetry. apply apply_2_turn; assumption.
Qed.
Lemma apply_2_one : forall A, meq3 (t2 (apply_2 qone A)) (t2 A).
Proof. intros A i j Hi Hj. cases3 i Hi; cases3 j Hj; qtab; ring. Qed.
Lemma apply_2_inv : forall q A, unitq q -> meq3 (t2 (apply_2 (oinv q) (apply_2 q A))) (t2 A).
Proof.
  intros q A H i j Hi Hj. rewrite <- apply_2_mul by (try assumption; apply unitq_conj; assumption).
  unfold oinv. rewrite qmul_conj_l by exact H. apply apply_2_one; assumption.
Qed.
(** trace and inner product *)
Lemma rot_colsM : forall q, unitq q -> forall k l, (k < 3)%nat -> (l < 3)%nat -> rsum 3 (fun i => t2 (to_matrix q) i k * t2 (to_matrix q) i l) = delta k l.
Proof.
  intros q H k l Hk Hl. destruct (to_matrix_rot (oinv q) (unitq_conj q H)) as [O _]. rewrite <- (O k l Hk Hl).
  apply rsum_ext. intros i Hi. rewrite !to_matrix_conj by assumption. reflexivity.
Qed.
Lemma ddot_t2 : forall A B, ddot22 A B = rsum 3 (fun i => rsum 3 (fun j => t2 A i j * t2 B i j)).
Proof. reflexivity. Qed.
Lemma turn2_inner : forall M A B, (forall k l, (k < 3)%nat -> (l < 3)%nat -> rsum 3 (fun i => M i k * M i l) = delta k l) ->
  rsum 3 (fun i => rsum 3 (fun j => turn2 M A i j * turn2 M B i j)) = rsum 3 (fun i => rsum 3 (fun j => A i j * B i j)).
Proof.
  intros M A B H.
  assert (E : forall i j, turn2 M A i j * turn2 M B i j = rsum 3 (fun m => rsum 3 (fun n => rsum 3 (fun o => rsum 3 (fun p => (M i m * M i o) * (M j n * M j p) * (A m n * B o p)))))).
  { intros i j. unfold turn2. cbn [rsum]. ring. }
  transitivity (rsum 3 (fun m => rsum 3 (fun n => rsum 3 (fun o => rsum 3 (fun p => rsum 3 (fun i => M i m * M i o) * rsum 3 (fun j => M j n * M j p) * (A m n * B o p)))))).
  - cbn [rsum]. rewrite !E. cbn [rsum]. ring.
  - transitivity (rsum 3 (fun m => rsum 3 (fun n => rsum 3 (fun o => rsum 3 (fun p => delta m o * delta n p * (A m n * B o p)))))).
    + apply rsum_ext; intros m Hm. apply rsum_ext; intros n Hn. apply rsum_ext; intros o Ho. apply rsum_ext; intros p Hp. rewrite !H by assumption. reflexivity.
    + cbv [delta Nat.eqb rsum]. ring.
Qed.
Lemma apply_2_inner : forall q A B, unitq q -> ddot22 (apply_2 q A) (apply_2 q B) = ddot22 A B.
Proof.
  intros q A B H. rewrite !ddot_t2. rewrite <- (turn2_inner (t2 (to_matrix q)) (t2 A) (t2 B) (rot_colsM q H)).
  apply rsum_ext; intros i Hi. apply rsum_ext; intros j Hj. rewrite !apply_2_turn by assumption. reflexivity.
Qed.
Lemma tr2_ext : forall A B, meq3 (t2 A) (t2 B) -> tr2 A = tr2 B.
Proof. intros A B H. unfold tr2. rewrite !H by lia. reflexivity. Qed.
Lemma apply_2_trace : forall q A, unitq q -> tr2 (apply_2 q A) = tr2 A.
Proof.
  intros q A H. unfold tr2. rewrite !apply_2_turn by lia.
  transitivity (rsum 3 (fun m => rsum 3 (fun n => rsum 3 (fun i => t2 (to_matrix q) i m * t2 (to_matrix q) i n) * t2 A m n))).
  - unfold turn2. cbn [rsum]. ring.
  - transitivity (rsum 3 (fun m => rsum 3 (fun n => delta m n * t2 A m n))).
    + apply rsum_ext; intros m Hm. apply rsum_ext; intros n Hn. rewrite (rot_colsM q H m n Hm Hn). reflexivity.
    + cbv [delta Nat.eqb rsum]. ring.
Qed.
Lemma apply_2_transpose : forall q A i j, (i < 3)%nat -> (j < 3)%nat -> t2 (apply_2 q (tr_2 A)) i j = t2 (apply_2 q A) j i.
Proof.
  intros q A i j Hi Hj. rewrite !apply_2_turn by assumption. unfold turn2.
  cbv [tr_2 t2 rsum Nat.add Nat.mul]. ring.
Qed.
Lemma apply_2_sym : forall q A, is_sym2 A -> is_sym2 (apply_2 q A).
Proof.
  intros q A H i j Hi Hj. rewrite <- (apply_2_transpose q A j i) by assumption. rewrite !apply_2_turn by assumption. unfold turn2.
  apply rsum_ext; intros m Hm. apply rsum_ext; intros n Hn. f_equal. rewrite (H m n Hm Hn). cases3 m Hm; cases3 n Hn; reflexivity.
Qed.
Lemma apply_2_skew : forall q A, is_skew2 A -> is_skew2 (apply_2 q A).
Proof.
  intros q A H i j Hi Hj. rewrite <- (apply_2_transpose q A i j) by assumption. rewrite !apply_2_turn by assumption. unfold turn2.
  rewrite <- rsum_opp. apply rsum_ext; intros m Hm. rewrite <- rsum_opp. apply rsum_ext; intros n Hn. rewrite (H m n Hm Hn).
  replace (t2 (tr_2 A) m n) with (t2 A n m) by (cases3 m Hm; cases3 n Hn; reflexivity). ring.
Qed.
Lemma apply_2_mul2 : forall q A B, unitq q -> meq3 (t2 (apply_2 q (mul_2 A B))) (t2 (mul_2 (apply_2 q A) (apply_2 q B))).
Proof.
  intros q A B H i j Hi Hj. pose proof (rot_colsM q H) as C. rewrite apply_2_turn by assumption.
  assert (E : t2 (mul_2 (apply_2 q A) (apply_2 q B)) i j = rsum 3 (fun k => t2 (apply_2 q A) i k * t2 (apply_2 q B) k j)).
  { set (X := apply_2 q A). set (Y := apply_2 q B). clearbody X Y. cases3 i Hi; cases3 j Hj; qtab; ring. }
  rewrite E. transitivity (rsum 3 (fun k => turn2 (t2 (to_matrix q)) (t2 A) i k * turn2 (t2 (to_matrix q)) (t2 B) k j)).
  2:{ apply rsum_ext; intros k Hk. rewrite !apply_2_turn by assumption. reflexivity. }
  set (M := t2 (to_matrix q)) in *. clearbody M.
  transitivity (rsum 3 (fun m => rsum 3 (fun n => rsum 3 (fun o => rsum 3 (fun p => M i m * M j p * t2 A m n * t2 B o p * rsum 3 (fun k => M k n * M k o)))))).
  - transitivity (rsum 3 (fun m => rsum 3 (fun n => rsum 3 (fun o => rsum 3 (fun p => M i m * M j p * t2 A m n * t2 B o p * delta n o))))).
    + assert (F : forall m p, (m < 3)%nat -> (p < 3)%nat -> t2 (mul_2 A B) m p = rsum 3 (fun n => t2 A m n * t2 B n p)).
      { intros m p Hm Hp. cases3 m Hm; cases3 p Hp; qtab; ring. }
      unfold turn2. transitivity (rsum 3 (fun m => rsum 3 (fun p => M i m * M j p * rsum 3 (fun n => t2 A m n * t2 B n p)))).
      * apply rsum_ext; intros m Hm. apply rsum_ext; intros p Hp. rewrite F by assumption. reflexivity.
      * cbv [delta Nat.eqb rsum]. ring.
    + apply rsum_ext; intros m Hm. apply rsum_ext; intros n Hn. apply rsum_ext; intros o Ho. apply rsum_ext; intros p Hp. rewrite (C n o Hn Ho). reflexivity.
  - unfold turn2. cbn [rsum]. ring.
Qed.

(** ** Symmetric tensors *)
Lemma mk_symmetric_sym : forall A, is_sym2 A -> veq 6 (mk_symmetric A) (sym A).
Proof.
  intros A H i Hi. pose proof (H 0 1 ltac:(lia) ltac:(lia))%nat as H01. pose proof (H 0 2 ltac:(lia) ltac:(lia))%nat as H02. pose proof (H 1 2 ltac:(lia) ltac:(lia))%nat as H12.
  unfold t2 in *. cbn [Nat.mul Nat.add] in *. unfold mk_symmetric, sym, tr_2. cases6 i Hi; cbv iota; rewrite <- ?H01, <- ?H02, <- ?H12; field.
Qed.
Lemma apply_sym_sym : forall q d, veq 6 (apply_sym q d) (sym (apply_2 q (usym d))).
Proof. intros q d. apply mk_symmetric_sym, apply_2_sym, usym_is_sym. Qed.
Lemma usym_ext : forall a b, veq 6 a b -> forall i j, (i < 3)%nat -> (j < 3)%nat -> t2 (usym a) i j = t2 (usym b) i j.
Proof. intros a b H i j Hi Hj. unfold t2, usym. cases3 i Hi; cases3 j Hj; cbn [Nat.mul Nat.add]; rewrite ?H by lia; reflexivity. Qed.
Lemma apply_sym_full : forall q d, meq3 (t2 (usym (apply_sym q d))) (turn2 (t2 (to_matrix q)) (t2 (usym d))).
Proof.
  intros q d i j Hi Hj. rewrite (usym_ext _ _ (apply_sym_sym q d)) by assumption. rewrite usym_sym by (try assumption; apply apply_2_sym, usym_is_sym). apply apply_2_turn; assumption.
Qed.
Lemma usym_inj : forall a b, meq3 (t2 (usym a)) (t2 (usym b)) -> veq 6 a b.
Proof.
  intros a b H i Hi. rewrite <- (sym_usym a i Hi), <- (sym_usym b i Hi). unfold meq3, t2 in H.
  pose proof (H 0 0 ltac:(lia) ltac:(lia))%nat as H00. pose proof (H 0 1 ltac:(lia) ltac:(lia))%nat as H01. pose proof (H 0 2 ltac:(lia) ltac:(lia))%nat as H02.
  pose proof (H 1 1 ltac:(lia) ltac:(lia))%nat as H11. pose proof (H 1 2 ltac:(lia) ltac:(lia))%nat as H12. pose proof (H 2 2 ltac:(lia) ltac:(lia))%nat as H22.
  pose proof (H 1 0 ltac:(lia) ltac:(lia))%nat as H10. pose proof (H 2 0 ltac:(lia) ltac:(lia))%nat as H20. pose proof (H 2 1 ltac:(lia) ltac:(lia))%nat as H21.
  cbn [Nat.mul Nat.add] in *. unfold sym. cases6 i Hi; cbv iota; congruence.
Qed.
Lemma apply_sym_mul : forall a b d, unitq a -> unitq b -> veq 6 (apply_sym (qmul a b) d) (apply_sym a (apply_sym b d)).
Proof.
  intros a b d Ha Hb. apply usym_inj. intros i j Hi Hj. rewrite !apply_sym_full by assumption.
  rewrite (turn2_ext _ _ _ (to_matrix_mul a b Ha Hb) i j Hi Hj), turn2_mul by assumption.
  apply turn2_ext2; try assumption. intros k l Hk Hl. symmetry. apply apply_sym_full; assumption.
Qed.
Lemma apply_sym_inner : forall q d e, unitq q -> dot 6 (apply_sym q d) (apply_sym q e) = dot 6 d e.
Proof.
  intros q d e H. rewrite <- !usym_dot, !ddot_t2. rewrite <- (turn2_inner (t2 (to_matrix q)) (t2 (usym d)) (t2 (usym e)) (rot_colsM q H)).
  apply rsum_ext; intros i Hi. apply rsum_ext; intros j Hj. rewrite !apply_sym_full by assumption. reflexivity.
Qed.
Lemma apply_sym_trace : forall q d, unitq q -> I1 (apply_sym q d) = I1 d.
Proof.
  intros q d H. pose proof (apply_2_trace q (usym d) H) as E. unfold I1, tr2, t2 in *. rewrite !apply_sym_sym by lia. cbn [Nat.mul Nat.add] in E. unfold sym.
  rewrite E. unfold usym. ring.
Qed.
(** the 6x6 matrix used for fourth order tensors acts as the rotation of the tensor *)
Lemma mandel_rot_acts : forall q d, veq 6 (mv 6 (flat 6 (mandel_rot (to_matrix q))) d) (apply_sym q d).
Proof.
  intros q d i Hi. rewrite apply_sym_sym by exact Hi. unfold apply_2. cbv zeta. set (M := to_matrix q). clearbody M.
  cases6 i Hi; cbv [mv flat rsum mandel_rot Nat.add Nat.mul sym usym mul_2 tr_2]; r2ring.
Qed.
Lemma mandel_rot_transpose : forall q i j, (i < 6)%nat -> (j < 6)%nat ->
  flat 6 (mandel_rot (to_matrix q)) j i = flat 6 (mandel_rot (to_matrix (oinv q))) i j.
Proof.
  intros q i j Hi Hj.
  assert (T : forall k, (k < 9)%nat -> to_matrix (oinv q) k = tr_2 (to_matrix q) k).
  { intros k Hk. unfold oinv. dq q. cases9 k Hk; qtab; ring. }
  pose proof (T 0 ltac:(lia))%nat as T0. pose proof (T 1 ltac:(lia))%nat as T1. pose proof (T 2 ltac:(lia))%nat as T2. pose proof (T 3 ltac:(lia))%nat as T3.
  pose proof (T 4 ltac:(lia))%nat as T4. pose proof (T 5 ltac:(lia))%nat as T5. pose proof (T 6 ltac:(lia))%nat as T6. pose proof (T 7 ltac:(lia))%nat as T7. pose proof (T 8 ltac:(lia))%nat as T8. clear T.
  cbv [tr_2] in *. set (M := to_matrix q) in *. set (N := to_matrix (oinv q)) in *. clearbody M N.
  cases6 i Hi; cases6 j Hj; cbv [flat mandel_rot Nat.add Nat.mul]; rewrite ?T0, ?T1, ?T2, ?T3, ?T4, ?T5, ?T6, ?T7, ?T8; ring.
Qed.
Lemma veq_mv : forall n A v w, veq n v w -> forall i, mv n A v i = mv n A w i.
Proof. intros n A v w H i. unfold mv. apply rsum_ext. intros j Hj. rewrite (H j Hj). reflexivity. Qed.
Lemma apply_sym_one : forall d, veq 6 (apply_sym qone d) d.
Proof. intros d i Hi. rewrite apply_sym_sym by exact Hi. cases6 i Hi; qtab; r2ring. Qed.
Lemma apply_sym_inv : forall q d, unitq q -> veq 6 (apply_sym (oinv q) (apply_sym q d)) d.
Proof.
  intros q d H i Hi. rewrite <- apply_sym_mul by (try assumption; apply unitq_conj; exact H). unfold oinv. rewrite qmul_conj_l by exact H. apply apply_sym_one. exact Hi.
Qed.
Lemma apply_ss_acts : forall q C d, unitq q -> veq 6 (mv 6 (apply_ss q C) (apply_sym q d)) (apply_sym q (mv 6 C d)).
Proof.
  intros q C d H i Hi. set (R := flat 6 (mandel_rot (to_matrix q))).
  transitivity (rsum 6 (fun k => R i k * rsum 6 (fun l => C k l * rsum 6 (fun j => R j l * apply_sym q d j)))).
  { unfold mv, apply_ss, rotate_matrix. fold R. cbn [rsum]. ring. }
  transitivity (rsum 6 (fun k => R i k * mv 6 C d k)).
  - apply rsum_ext; intros k Hk. f_equal. unfold mv. apply rsum_ext; intros l Hl. f_equal.
    transitivity (mv 6 (flat 6 (mandel_rot (to_matrix (oinv q)))) (apply_sym q d) l).
    + unfold mv. apply rsum_ext; intros j Hj. unfold R. rewrite mandel_rot_transpose by assumption. reflexivity.
    + rewrite mandel_rot_acts by exact Hl. apply apply_sym_inv; assumption.
  - exact (mandel_rot_acts q (mv 6 C d) i Hi).
Qed.

(** ** Skew tensors *)
Lemma apply_skew_vector : forall q w i, unitq q -> (i < 3)%nat -> apply_skew q w i = apply_v q w i.
Proof.
  intros [a b c d] w i H Hi. unfold unitq in H. cbn [q0 q1 q2 q3] in H. assert (A : a * a = 1 - b * b - c * c - d * d) by lra. clear H.
  cases3 i Hi; qtab; ring [A].
Qed.
Lemma apply_skew_full : forall q w, unitq q -> meq3 (t2 (uskew (apply_skew q w))) (turn2 (t2 (to_matrix q)) (t2 (uskew w))).
Proof.
  intros [a b c d] w H i j Hi Hj. unfold unitq in H. cbn [q0 q1 q2 q3] in H. assert (A : a * a = 1 - b * b - c * c - d * d) by lra. clear H.
  cases3 i Hi; cases3 j Hj; qtab; ring [A].
Qed.
Lemma apply_skew_mul : forall a b w, unitq a -> unitq b -> veq 3 (apply_skew (qmul a b) w) (apply_skew a (apply_skew b w)).
Proof.
  intros a b w Ha Hb i Hi. rewrite !apply_skew_vector by (try assumption; apply unitq_mul; assumption). rewrite apply_v_mul by exact Hi.
  pose proof (apply_skew_vector b w 0%nat Hb ltac:(lia)) as E0. pose proof (apply_skew_vector b w 1%nat Hb ltac:(lia)) as E1. pose proof (apply_skew_vector b w 2%nat Hb ltac:(lia)) as E2.
  unfold apply_v at 1 3. cbv zeta. rewrite E0, E1, E2. reflexivity.
Qed.

(** ** Fourth order tensors *)
(** Mandel components of the symmetric part of e_i e_j *)
Definition pair6 (i j : nat) : vec := sym (fun k => (delta (3 * i + j) k + delta (3 * j + i) k) / 2).
Lemma mandel_entry : forall C i j k l, (i < 3)%nat -> (j < 3)%nat -> (k < 3)%nat -> (l < 3)%nat ->
  t4 (mandel2full C) i j k l = dot 6 (pair6 i j) (mv 6 (flat 6 C) (pair6 k l)).
Proof.
  intros C i j k l Hi Hj Hk Hl.
  cases3 i Hi; cases3 j Hj; cases3 k Hk; cases3 l Hl; cbv [pair6 delta Nat.eqb t4 flat mv dot rsum sym mandel2full Nat.add Nat.mul]; r2ring.
Qed.
Lemma pair6_turn : forall q i j a, (i < 3)%nat -> (j < 3)%nat -> (a < 6)%nat ->
  mv 6 (flat 6 (mandel_rot (to_matrix (oinv q)))) (pair6 i j) a =
  rsum 3 (fun m => rsum 3 (fun n => t2 (to_matrix q) i m * t2 (to_matrix q) j n * pair6 m n a)).
Proof.
  intros q i j a Hi Hj Ha.
  transitivity (rsum 6 (fun b => flat 6 (mandel_rot (to_matrix q)) b a * pair6 i j b)).
  { unfold mv. apply rsum_ext; intros b Hb. rewrite <- mandel_rot_transpose by assumption. reflexivity. }
  set (M := to_matrix q). clearbody M.
  cases3 i Hi; cases3 j Hj; cases6 a Ha; cbv [pair6 delta Nat.eqb t2 flat rsum sym mandel_rot Nat.add Nat.mul]; r2ring.
Qed.
Lemma apply_ss_full : forall q C X, (forall a b, (a < 6)%nat -> (b < 6)%nat -> flat 6 X a b = apply_ss q (flat 6 C) a b) ->
  forall i j k l, (i < 3)%nat -> (j < 3)%nat -> (k < 3)%nat -> (l < 3)%nat ->
  t4 (mandel2full X) i j k l = turn4 (t2 (to_matrix q)) (t4 (mandel2full C)) i j k l.
Proof.
  intros q C X HX i j k l Hi Hj Hk Hl. rewrite mandel_entry by assumption.
  set (R := flat 6 (mandel_rot (to_matrix q))). set (Rt := flat 6 (mandel_rot (to_matrix (oinv q)))).
  assert (ET : forall a b, (a < 6)%nat -> (b < 6)%nat -> R b a = Rt a b) by (intros; apply mandel_rot_transpose; assumption).
  transitivity (dot 6 (mv 6 Rt (pair6 i j)) (mv 6 (flat 6 C) (mv 6 Rt (pair6 k l)))).
  - transitivity (rsum 6 (fun a => pair6 i j a * rsum 6 (fun b => rsum 6 (fun c => rsum 6 (fun d => R a c * flat 6 C c d * R b d)) * pair6 k l b))).
    + unfold dot, mv. apply rsum_ext; intros a Ha. f_equal. apply rsum_ext; intros b Hb. f_equal. rewrite HX by assumption. unfold apply_ss, rotate_matrix. fold R.
      first [reflexivity | (apply rsum_ext; intros c Hc; try (rewrite <- rsum_scal; apply rsum_ext; intros; ring); cbn [rsum]; ring)].
    + set (u := pair6 i j). set (v := pair6 k l). clearbody u v.
      transitivity (rsum 6 (fun c => rsum 6 (fun d => rsum 6 (fun a => R a c * u a) * flat 6 C c d * rsum 6 (fun b => R b d * v b)))).
      * set (D := flat 6 C). clearbody D R. clear.
        transitivity (rsum 6 (fun a => rsum 6 (fun c => rsum 6 (fun d => rsum 6 (fun b => u a * R a c * D c d * R b d * v b))))).
        { apply rsum_ext; intros a Ha. rewrite <- rsum_scal.
          transitivity (rsum 6 (fun b => rsum 6 (fun c => rsum 6 (fun d => u a * R a c * D c d * R b d * v b)))).
          - apply rsum_ext; intros b Hb. rewrite <- rsum_scal_r, <- rsum_scal. apply rsum_ext; intros c Hc. rewrite <- rsum_scal_r, <- rsum_scal. apply rsum_ext; intros d Hd. ring.
          - rewrite rsum_swap. apply rsum_ext; intros c Hc. rewrite rsum_swap. reflexivity. }
        rewrite rsum_swap. apply rsum_ext; intros c Hc. rewrite rsum_swap. apply rsum_ext; intros d Hd.
        transitivity (rsum 6 (fun a => (R a c * u a) * (D c d * rsum 6 (fun b => R b d * v b)))).
        { apply rsum_ext; intros a Ha. rewrite <- !rsum_scal. apply rsum_ext; intros b Hb. ring. }
        rewrite rsum_scal_r. ring.
      * unfold dot, mv. apply rsum_ext; intros c Hc.
        transitivity (rsum 6 (fun a => Rt c a * u a) * rsum 6 (fun d => flat 6 C c d * rsum 6 (fun b => Rt d b * v b))); [|reflexivity].
        rewrite <- rsum_scal. apply rsum_ext; intros d Hd.
        rewrite (rsum_ext 6 (fun a => R a c * u a) (fun a => Rt c a * u a)) by (intros a Ha; rewrite (ET c a Hc Ha); reflexivity).
        rewrite (rsum_ext 6 (fun b => R b d * v b) (fun b => Rt d b * v b)) by (intros b Hb; rewrite (ET d b Hd Hb); reflexivity). ring.
  - unfold turn4. set (Q := t2 (to_matrix q)).
    transitivity (rsum 3 (fun m => rsum 3 (fun n => rsum 3 (fun o => rsum 3 (fun p => Q i m * Q j n * Q k o * Q l p * dot 6 (pair6 m n) (mv 6 (flat 6 C) (pair6 o p))))))).
    2:{ apply rsum_ext; intros m Hm. apply rsum_ext; intros n Hn. apply rsum_ext; intros o Ho. apply rsum_ext; intros p Hp. rewrite mandel_entry by assumption. reflexivity. }
    set (D := flat 6 C). clearbody D.
    transitivity (rsum 6 (fun a => rsum 3 (fun m => rsum 3 (fun n => Q i m * Q j n * pair6 m n a)) * rsum 6 (fun b => D a b * rsum 3 (fun o => rsum 3 (fun p => Q k o * Q l p * pair6 o p b))))).
    { unfold dot. apply rsum_ext; intros a Ha. unfold Rt. rewrite (pair6_turn q i j a Hi Hj Ha). f_equal. unfold mv at 1. apply rsum_ext; intros b Hb. f_equal. exact (pair6_turn q k l b Hk Hl Hb). }
    clearbody Q. clear. set (P := pair6). clearbody P. unfold dot, mv.
    (* both sides are the same sum in a different order *)
    transitivity (rsum 6 (fun a => rsum 3 (fun m => rsum 3 (fun n => rsum 3 (fun o => rsum 3 (fun p => Q i m * Q j n * Q k o * Q l p * (P m n a * rsum 6 (fun b => D a b * P o p b)))))))).
    + apply rsum_ext; intros a Ha. set (X := fun o p => rsum 6 (fun b => D a b * P o p b)).
      transitivity (rsum 3 (fun m => rsum 3 (fun n => Q i m * Q j n * P m n a)) * rsum 3 (fun o => rsum 3 (fun p => Q k o * Q l p * X o p))).
      * f_equal. unfold X. transitivity (rsum 6 (fun b => rsum 3 (fun o => rsum 3 (fun p => D a b * (Q k o * Q l p * P o p b))))).
        { apply rsum_ext; intros b Hb. rewrite <- rsum_scal. apply rsum_ext; intros o Ho. rewrite <- rsum_scal. reflexivity. }
        rewrite rsum_swap. apply rsum_ext; intros o Ho. rewrite rsum_swap. apply rsum_ext; intros p Hp. rewrite <- rsum_scal. apply rsum_ext; intros b Hb. ring.
      * change (rsum 3 (fun m => rsum 3 (fun n => Q i m * Q j n * P m n a)) * rsum 3 (fun o => rsum 3 (fun p => Q k o * Q l p * X o p)) =
          rsum 3 (fun m => rsum 3 (fun n => rsum 3 (fun o => rsum 3 (fun p => Q i m * Q j n * Q k o * Q l p * (P m n a * X o p)))))).
        clearbody X. rewrite <- rsum_scal_r. apply rsum_ext; intros m Hm. rewrite <- rsum_scal_r. apply rsum_ext; intros n Hn.
        rewrite <- rsum_scal. apply rsum_ext; intros o Ho. rewrite <- rsum_scal. apply rsum_ext; intros p Hp. ring.
    + rewrite rsum_swap. apply rsum_ext; intros m Hm. rewrite rsum_swap. apply rsum_ext; intros n Hn. rewrite rsum_swap. apply rsum_ext; intros o Ho. rewrite rsum_swap. apply rsum_ext; intros p Hp.
      rewrite <- rsum_scal. reflexivity.
Qed.
Lemma apply_4_turn : forall q a i j k l, apply_4 q a i j k l = turn4 (t2 (to_matrix q)) (t4 a) i j k l.
Proof. reflexivity. Qed.
(** the rotated fourth order tensor acts on the rotated second order tensor *)
Lemma apply_4_acts : forall q A B i j, unitq q -> (i < 3)%nat -> (j < 3)%nat ->
  rsum 3 (fun k => rsum 3 (fun l => apply_4 q A i j k l * t2 (apply_2 q B) k l)) = turn2 (t2 (to_matrix q)) (ddot42 A B) i j.
Proof.
  intros q A B i j H Hi Hj. pose proof (rot_colsM q H) as C.
  transitivity (rsum 3 (fun k => rsum 3 (fun l => turn4 (t2 (to_matrix q)) (t4 A) i j k l * turn2 (t2 (to_matrix q)) (t2 B) k l))).
  { apply rsum_ext; intros k Hk. apply rsum_ext; intros l Hl. rewrite apply_4_turn, apply_2_turn by assumption. reflexivity. }
  set (M := t2 (to_matrix q)) in *. clearbody M. set (T := t4 A). set (S := t2 B).
  change (ddot42 A B) with (fun m n => rsum 3 (fun o => rsum 3 (fun p => T m n o p * S o p))). clearbody T S.
  unfold turn2 at 2. unfold turn4.
  (* move the outer sums inside *)
  set (F := fun o p => rsum 3 (fun m => rsum 3 (fun n => M i m * M j n * T m n o p))).
  transitivity (rsum 3 (fun k => rsum 3 (fun l => turn2 M F k l * turn2 M S k l))).
  - apply rsum_ext; intros k Hk. apply rsum_ext; intros l Hl. f_equal. unfold turn2, F. cbn [rsum]. ring.
  - rewrite (turn2_inner M F S C). unfold F. cbn [rsum]. ring.
Qed.
