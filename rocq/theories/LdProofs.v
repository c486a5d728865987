(** Proofs about the large-strain update. *)
From Coq Require Import List.
From Verif Require Import Base.
From Verif Require Import Diff.
From Verif Require Import LinDiff.
From Verif Require Import NemlMathModel.
From Verif Require Import NemlMathSpec.
From Verif Require Import NemlMathProofs.
From Verif Require Import TruesdellProofs.
From Verif Require Import LdModel.
Import ListNotations.

Definition tp (z : vec) : vec := fun p => z (3 * (p mod 3) + p / 3)%nat.
Ltac tab9 := cbv [tp mat_mat9 idsym idskew vlist nth Nat.div Nat.modulo Nat.divmod fst snd Nat.sub vadd vsub vscal vzero
  t2 t4 flat ddot42 ddot22 ddot44 tr2 mul2 rsum Nat.add Nat.mul Nat.ltb Nat.leb Nat.eqb delta mm mv dot].

Lemma ij9 : forall p, (p < 9)%nat -> exists i j, (i < 3)%nat /\ (j < 3)%nat /\ p = (3 * i + j)%nat.
Proof.
  intros p H. exists (p / 3)%nat, (p mod 3)%nat. split; [|split].
  - apply Nat.div_lt_upper_bound; lia.
  - apply Nat.mod_upper_bound. lia.
  - apply Nat.div_mod. lia.
Qed.

Lemma mm9 : forall A B i j, (i < 9)%nat -> (j < 9)%nat -> flat 9 (mat_mat9 A B) i j = mm 9 (flat 9 A) (flat 9 B) i j.
Proof.
  intros A B i j Hi Hj. unfold flat at 1, mat_mat9, mm, flat.
  replace ((9 * i + j) / 9)%nat with i by (rewrite Nat.mul_comm, Nat.div_add_l by lia; rewrite Nat.div_small by lia; lia).
  replace ((9 * i + j) mod 9)%nat with j; [reflexivity|].
  rewrite Nat.mul_comm, Nat.add_comm, Nat.mod_add, Nat.mod_small by lia. reflexivity.
Qed.
Lemma mv_mm : forall n A B x i, mv n (mm n A B) x i = mv n A (mv n B x) i.
Proof.
  intros. unfold mv, mm. transitivity (rsum n (fun j => rsum n (fun k => A i k * B k j * x j))).
  - apply rsum_ext. intros j Hj. rewrite <- rsum_scal_r. apply rsum_ext. intros; ring.
  - rewrite rsum_swap. apply rsum_ext. intros k Hk. rewrite <- rsum_scal. apply rsum_ext. intros; ring.
Qed.
Lemma mv_ext : forall n (A B : mat) x y i, (forall j, (j < n)%nat -> A i j = B i j) -> veq n x y -> mv n A x i = mv n B y i.
Proof. intros. unfold mv. apply rsum_ext. intros j Hj. rewrite H, (H0 j) by assumption. reflexivity. Qed.
Lemma mv9 : forall A B x i, (i < 9)%nat -> mv 9 (flat 9 (mat_mat9 A B)) x i = mv 9 (flat 9 A) (mv 9 (flat 9 B) x) i.
Proof. intros. rewrite <- mv_mm. apply mv_ext; [intros; apply mm9; assumption | intros ? ?; reflexivity]. Qed.
Lemma mv_vadd : forall n A x y i, mv n A (vadd x y) i = mv n A x i + mv n A y i.
Proof. intros. unfold mv, vadd. rewrite <- rsum_plus. apply rsum_ext. intros; ring. Qed.
Lemma mv_vsub : forall n A x y i, mv n A (vsub x y) i = mv n A x i - mv n A y i.
Proof. intros. unfold mv, vsub. rewrite <- rsum_minus. apply rsum_ext. intros; ring. Qed.

Lemma ddot42_mv : forall A B i j, (i < 3)%nat -> (j < 3)%nat -> ddot42 A B i j = mv 9 (flat 9 A) B (3 * i + j)%nat.
Proof. intros A B i j Hi Hj. cases3 i Hi; cases3 j Hj; tab9; ring. Qed.

Lemma idsym_usym : forall v, veq 9 (mv 9 (flat 9 idsym) (usym v)) (usym v).
Proof. intros v p Hp. cases9 p Hp; tab9; cbv [usym]; field; apply Rgt_not_eq, r2_pos. Qed.
Lemma idskew_uskew : forall v, veq 9 (mv 9 (flat 9 idskew) (uskew v)) (uskew v).
Proof. intros v p Hp. cases9 p Hp; tab9; cbv [uskew]; field; apply Rgt_not_eq, r2_pos. Qed.
Lemma idsym_uskew : forall v, veq 9 (mv 9 (flat 9 idsym) (uskew v)) vzero.
Proof. intros v p Hp. cases9 p Hp; tab9; cbv [uskew]; field; apply Rgt_not_eq, r2_pos. Qed.
Lemma idsym_col : forall p a b, (p < 9)%nat -> (a < 3)%nat -> (b < 3)%nat ->
  flat 9 idsym p (3 * a + b)%nat = flat 9 idsym p (3 * b + a)%nat.
Proof. intros p a b Hp Ha Hb. cases3 a Ha; cases3 b Hb; cases9 p Hp; reflexivity. Qed.
Lemma idskew_col : forall p a b, (p < 9)%nat -> (a < 3)%nat -> (b < 3)%nat ->
  flat 9 idskew p (3 * a + b)%nat = - flat 9 idskew p (3 * b + a)%nat.
Proof. intros p a b Hp Ha Hb. cases3 a Ha; cases3 b Hb; cases9 p Hp; tab9; ring. Qed.

(** ** The Truesdell operator preserves symmetry, and so does its inverse *)
Lemma tr_mv : forall D W x i j, (i < 3)%nat -> (j < 3)%nat ->
  mv 9 (flat 9 (truesdell_mat D W)) x (3 * i + j)%nat = tr_op (Lof D W) (t2 x) i j.
Proof. intros. apply truesdell_mat_spec; assumption. Qed.
Lemma tp_t2 : forall x i j, (i < 3)%nat -> (j < 3)%nat -> t2 (tp x) i j = t2 x j i.
Proof. intros x i j Hi Hj. cases3 i Hi; cases3 j Hj; reflexivity. Qed.
Lemma tr_op_tp : forall L x i j, (i < 3)%nat -> (j < 3)%nat ->
  tr_op L (t2 (tp x)) i j = tr_op L (t2 x) j i.
Proof.
  intros L x i j Hi Hj. unfold tr_op, mul2. simpl rsum. rewrite !tp_t2 by lia. ring.
Qed.
Definition sym9 (x : vec) : Prop := veq 9 (tp x) x.
Lemma sym9_is_sym2 : forall x, sym9 x <-> is_sym2 x.
Proof.
  intros x; split.
  - intros H i j Hi Hj. rewrite <- tp_t2 by assumption. apply (H (3 * j + i)%nat). lia.
  - intros H p Hp. destruct (ij9 p Hp) as (i & j & Hi & Hj & ->). change (t2 (tp x) i j = t2 x i j). rewrite tp_t2 by assumption. apply H; assumption.
Qed.
Lemma inv_left : forall Ji J x, inverse9 Ji J -> veq 9 (mv 9 (flat 9 Ji) (mv 9 (flat 9 J) x)) x.
Proof.
  intros Ji J x H i Hi. rewrite <- mv_mm. transitivity (rsum 9 (fun j => delta i j * x j)).
  - unfold mv, mm. apply rsum_ext. intros j Hj. destruct (H i j Hi Hj) as [E _]. unfold flat. rewrite E. reflexivity.
  - apply rsum_delta. exact Hi.
Qed.
Lemma inv_right : forall Ji J x, inverse9 Ji J -> veq 9 (mv 9 (flat 9 J) (mv 9 (flat 9 Ji) x)) x.
Proof.
  intros Ji J x H i Hi. rewrite <- mv_mm. transitivity (rsum 9 (fun j => delta i j * x j)).
  - unfold mv, mm. apply rsum_ext. intros j Hj. destruct (H i j Hi Hj) as [_ E]. unfold flat. rewrite E. reflexivity.
  - apply rsum_delta. exact Hi.
Qed.
Lemma Jinv_sym : forall D W Ji y, inverse9 Ji (truesdell_mat D W) -> sym9 y -> sym9 (mv 9 (flat 9 Ji) y).
Proof.
  intros D W Ji y H Hy. set (z := mv 9 (flat 9 Ji) y).
  assert (Jz : veq 9 (mv 9 (flat 9 (truesdell_mat D W)) z) y) by (apply inv_right; exact H).
  assert (Jt : veq 9 (mv 9 (flat 9 (truesdell_mat D W)) (tp z)) y).
  { intros p Hp. destruct (ij9 p Hp) as (i & j & Hi & Hj & ->). rewrite tr_mv, tr_op_tp, <- tr_mv by assumption.
    rewrite (Jz (3 * j + i)%nat) by lia. apply sym9_is_sym2 in Hy. apply Hy; assumption. }
  intros p Hp. rewrite <- (inv_left Ji (truesdell_mat D W) (tp z) H p Hp). unfold z at 2. apply mv_ext; [reflexivity | exact Jt].
Qed.
Lemma system_sym : forall D W Sn So x Ji, inverse9 Ji (truesdell_mat D W) -> truesdell_system D W Sn So x -> is_sym2 x.
Proof.
  intros D W Sn So x Ji H Hs. apply sym9_is_sym2.
  assert (E : veq 9 x (mv 9 (flat 9 Ji) (usym (truesdell_rhs D W Sn So)))).
  { intros p Hp. rewrite <- (inv_left Ji _ x H p Hp). apply mv_ext; [reflexivity | exact Hs]. }
  assert (S : sym9 (mv 9 (flat 9 Ji) (usym (truesdell_rhs D W Sn So)))).
  { apply Jinv_sym with (D := D) (W := W); [exact H|]. apply sym9_is_sym2, usym_is_sym. }
  intros p Hp. unfold tp. rewrite (E p Hp).
  rewrite (E (3 * (p mod 3) + p / 3)%nat). 2:{ destruct (ij9 p Hp) as (i & j & Hi & Hj & ->). cases3 i Hi; cases3 j Hj; simpl; lia. }
  apply S. exact Hp.
Qed.

(** the updated stress y = x + Sn satisfies J[y] = Sn + dS *)
Lemma tr_op_add : forall L (x y : vec) i j, tr_op L (t2 (vadd x y)) i j = tr_op L (t2 x) i j + tr_op L (t2 y) i j.
Proof. intros. unfold tr_op, mul2, t2, vadd. simpl rsum. ring. Qed.
Lemma system_total : forall D W Sn So x, truesdell_system D W Sn So x ->
  forall i j, (i < 3)%nat -> (j < 3)%nat ->
  tr_op (Lof D W) (t2 (vadd x (usym Sn))) i j = t2 (usym Sn) i j + t2 (usym So) i j.
Proof.
  intros D W Sn So x H i j Hi Hj. rewrite tr_op_add, <- truesdell_mat_spec by assumption.
  rewrite (H (3 * i + j)%nat) by lia. change (t2 (usym (truesdell_rhs D W Sn So)) i j + tr_op (Lof D W) (t2 (usym Sn)) i j = t2 (usym Sn) i j + t2 (usym So) i j).
  rewrite truesdell_rhs_spec by assumption. ring.
Qed.
Lemma usym_vadd : forall a b, veq 9 (usym (vadd a b)) (vadd (usym a) (usym b)).
Proof. intros a b p Hp. cases9 p Hp; cbv [usym vadd]; field; apply Rgt_not_eq, r2_pos. Qed.
Lemma usym_veq : forall a b, veq 6 a b -> veq 9 (usym a) (usym b).
Proof. intros a b H p Hp. cases9 p Hp; cbv [usym]; rewrite (H _) by lia; reflexivity. Qed.
Lemma sym_veq : forall a b, veq 9 a b -> veq 6 (sym a) (sym b).
Proof. intros a b H p Hp. cases6 p Hp; cbv [sym]; rewrite !(H _) by lia; reflexivity. Qed.
Lemma sym_vadd : forall a b, veq 6 (sym (vadd a b)) (vadd (sym a) (sym b)).
Proof. intros a b p Hp. cases6 p Hp; cbv [sym vadd]; field; apply Rgt_not_eq, r2_pos. Qed.
Lemma usym_sym9 : forall A, is_sym2 A -> veq 9 (usym (sym A)) A.
Proof. intros A H p Hp. destruct (ij9 p Hp) as (i & j & Hi & Hj & ->). apply usym_sym; assumption. Qed.
Lemma update_total : forall x Sn, is_sym2 x -> veq 9 (usym (truesdell_update_sym x Sn)) (vadd x (usym Sn)).
Proof.
  intros x Sn H p Hp. unfold truesdell_update_sym. change (fun i => Sn i + sym x i) with (vadd Sn (sym x)).
  rewrite (usym_vadd Sn (sym x) p Hp). unfold vadd. rewrite (usym_sym9 x H p Hp). ring.
Qed.

Lemma tr_op_ext : forall L X Y, (forall i j, (i < 3)%nat -> (j < 3)%nat -> X i j = Y i j) -> forall i j, (i < 3)%nat -> (j < 3)%nat ->
  tr_op L X i j = tr_op L Y i j.
Proof. intros L X Y H i j Hi Hj. unfold tr_op, mul2. simpl rsum. rewrite !H by lia. reflexivity. Qed.

Lemma mul2_ext_l : forall X Y Z, (forall i j, (i < 3)%nat -> (j < 3)%nat -> X i j = Y i j) -> forall i j, (i < 3)%nat -> (j < 3)%nat ->
  mul2 X Z i j = mul2 Y Z i j.
Proof. intros X Y Z H i j Hi Hj. unfold mul2. simpl rsum. rewrite !H by lia. reflexivity. Qed.
Lemma mul2_ext_r : forall Z X Y, (forall i j, (i < 3)%nat -> (j < 3)%nat -> X i j = Y i j) -> forall i j, (i < 3)%nat -> (j < 3)%nat ->
  mul2 Z X i j = mul2 Z Y i j.
Proof. intros Z X Y H i j Hi Hj. unfold mul2. simpl rsum. rewrite !H by lia. reflexivity. Qed.

(** ** The stress update *)
Lemma ld_stress : forall tr d_np1 d_n w_np1 w_n s_n small_np1 small_n base_A x Ji s_np1 A B,
  update_ld_inc tr d_np1 d_n w_np1 w_n s_n small_np1 small_n base_A x Ji s_np1 A B ->
  forall i j, (i < 3)%nat -> (j < 3)%nat ->
  tr_op (Lof (ld_D tr d_np1 d_n) (ld_W w_np1 w_n)) (t2 (usym s_np1)) i j = t2 (usym s_n) i j + t2 (usym (vsub small_np1 small_n)) i j.
Proof.
  intros tr d1 d0 w1 w0 sn sm1 sm0 bA x Ji s A B (Hs & -> & Hi & _) i j Li Lj.
  rewrite <- (system_total _ _ _ _ _ Hs i j Li Lj). apply tr_op_ext; [|assumption|assumption]. intros a b Ha Hb.
  apply update_total; [eapply system_sym; eassumption | lia].
Qed.

(** ** The tangent *)
Lemma mandel_sym_mv : forall M v, sym_first M -> sym_second M ->
  veq 9 (usym (mv 6 (flat 6 (full2mandel M)) v)) (mv 9 (flat 9 M) (usym v)).
Proof.
  intros M v H1 H2 p Hp. destruct (ij9 p Hp) as (i & j & Hi & Hj & ->).
  change (t2 (usym (mv 6 (flat 6 (full2mandel M)) v)) i j = mv 9 (flat 9 M) (usym v) (3 * i + j)%nat).
  rewrite <- mandel_apply, <- ddot42_mv by assumption. unfold ddot42. apply rsum_ext; intros k Hk. apply rsum_ext; intros l Hl.
  rewrite mandel_full_round by assumption. reflexivity.
Qed.
Lemma skew_sym_mv : forall M v, sym_first M -> skew_second M ->
  veq 9 (usym (mv 3 (flat 3 (fun i => full2skew M i * 2)) v)) (mv 9 (flat 9 M) (uskew v)).
Proof.
  intros M v H1 H2 p Hp. destruct (ij9 p Hp) as (i & j & Hi & Hj & ->).
  change (t2 (usym (mv 3 (flat 3 (fun i => full2skew M i * 2)) v)) i j = mv 9 (flat 9 M) (uskew v) (3 * i + j)%nat).
  transitivity (2 * t2 (usym (mv 3 (flat 3 (full2skew M)) v)) i j).
  - cases3 i Hi; cases3 j Hj; tab9; cbv [usym]; field; apply Rgt_not_eq, r2_pos.
  - rewrite <- skew2full_apply, <- ddot42_mv by assumption. unfold ddot42. apply rsum_ext; intros k Hk. apply rsum_ext; intros l Hl.
    rewrite skew_full_round by assumption. reflexivity.
Qed.
Lemma T1_sym : forall C S y, sym9 (mv 9 (flat 9 (fun i => mat_mat9 (mandel2full C) idsym i + truesdell_tangent_outer S i)) y).
Proof.
  intros C S y. apply sym9_is_sym2. intros i j Hi Hj. unfold t2.
  assert (E : forall p, (p < 9)%nat -> mv 9 (flat 9 (fun i => mat_mat9 (mandel2full C) idsym i + truesdell_tangent_outer S i)) y p =
     mv 9 (flat 9 (mandel2full C)) (mv 9 (flat 9 idsym) y) p + rsum 9 (fun q => truesdell_tangent_outer S (9 * p + q)%nat * y q)).
  { intros p Hp. rewrite <- mv9 by assumption. unfold mv. rewrite <- rsum_plus. apply rsum_ext. intros q Hq. unfold flat. ring. }
  rewrite !E by lia. rewrite !truesdell_outer_spec by assumption. rewrite <- !ddot42_mv by assumption.
  f_equal.
  - unfold ddot42. apply rsum_ext; intros k Hk. apply rsum_ext; intros l Hl. rewrite (mandel_minor1 C i j k l) by assumption. reflexivity.
  - pose proof (usym_is_sym S) as HS. unfold mul2. simpl rsum. rewrite (HS i j), (HS i 0%nat), (HS i 1%nat), (HS i 2%nat), (HS j 0%nat), (HS j 1%nat), (HS j 2%nat) by lia. ring.
Qed.
Definition basis (q : nat) : vec := fun k => delta q k.
Lemma mv_basis : forall n A q i, (q < n)%nat -> mv n A (basis q) i = A i q.
Proof.
  intros n A q i H. unfold mv, basis. rewrite <- (rsum_delta n q (fun j => A i j) H). apply rsum_ext. intros; ring.
Qed.
Lemma calc_tangent_spec : forall D W Ji C S, inverse9 Ji (truesdell_mat D W) ->
  forall v w, veq 9 (usym (vadd (mv 6 (flat 6 (fst (calc_tangent Ji C S))) v) (mv 3 (flat 3 (snd (calc_tangent Ji C S))) w)))
    (mv 9 (flat 9 Ji) (fun p => mv 9 (flat 9 (mandel2full C)) (usym v) p + rsum 9 (fun q => truesdell_tangent_outer S (9 * p + q)%nat * (usym v q + uskew w q)))).
Proof.
  intros D W Ji C S HJ v w.
  set (T1 := fun i => mat_mat9 (mandel2full C) idsym i + truesdell_tangent_outer S i).
  set (L := mat_mat9 Ji T1).
  assert (Ls : forall y, sym9 (mv 9 (flat 9 L) y)).
  { intros y p Hp. destruct (ij9 p Hp) as (i & j & Hi & Hj & ->). unfold tp. unfold L.
    rewrite !mv9 by (cases3 i Hi; cases3 j Hj; simpl; lia).
    apply (Jinv_sym D W Ji _ HJ (T1_sym C S y)). exact Hp. }
  assert (P1 : forall Id, sym_first (mat_mat9 L Id)).
  { intros Id i j k l Hi Hj Hk Hl.
    transitivity (flat 9 (mat_mat9 L Id) (3 * i + j)%nat (3 * k + l)%nat); [unfold t4, flat; f_equal; lia|].
    transitivity (flat 9 (mat_mat9 L Id) (3 * j + i)%nat (3 * k + l)%nat); [|unfold t4, flat; f_equal; lia].
    rewrite <- !(mv_basis 9) by lia. rewrite !mv9 by lia.
    assert (Q : is_sym2 (mv 9 (flat 9 L) (mv 9 (flat 9 Id) (basis (3 * k + l)%nat)))) by apply sym9_is_sym2, Ls. apply Q; assumption. }
  assert (P2 : sym_second (mat_mat9 L idsym)).
  { intros i j k l Hi Hj Hk Hl.
    transitivity (flat 9 (mat_mat9 L idsym) (3 * i + j)%nat (3 * k + l)%nat); [unfold t4, flat; f_equal; lia|].
    transitivity (flat 9 (mat_mat9 L idsym) (3 * i + j)%nat (3 * l + k)%nat); [|unfold t4, flat; f_equal; lia].
    rewrite !mm9 by lia. unfold mm. apply rsum_ext. intros p Hp. rewrite idsym_col by assumption. reflexivity. }
  assert (P3 : skew_second (mat_mat9 L idskew)).
  { intros i j k l Hi Hj Hk Hl.
    transitivity (flat 9 (mat_mat9 L idskew) (3 * i + j)%nat (3 * k + l)%nat); [unfold t4, flat; f_equal; lia|].
    transitivity (- flat 9 (mat_mat9 L idskew) (3 * i + j)%nat (3 * l + k)%nat); [|unfold t4, flat; do 2 f_equal; lia].
    rewrite !mm9 by lia. unfold mm. rewrite <- rsum_opp. apply rsum_ext. intros p Hp. rewrite idskew_col by assumption. ring. }
  intros p Hp. rewrite (usym_vadd _ _ p Hp). unfold vadd.
  change (fst (calc_tangent Ji C S)) with (full2mandel (mat_mat9 L idsym)).
  change (snd (calc_tangent Ji C S)) with (fun i => full2skew (mat_mat9 L idskew) i * 2).
  rewrite (mandel_sym_mv _ v (P1 _) P2 p Hp), (skew_sym_mv _ w (P1 _) P3 p Hp).
  rewrite !mv9 by exact Hp.
  rewrite (mv_ext 9 (flat 9 L) (flat 9 L) (mv 9 (flat 9 idsym) (usym v)) (usym v)) by (auto using idsym_usym).
  rewrite (mv_ext 9 (flat 9 L) (flat 9 L) (mv 9 (flat 9 idskew) (uskew w)) (uskew w)) by (auto using idskew_uskew).
  rewrite <- mv_vadd. unfold L. rewrite mv9 by exact Hp. apply mv_ext; [reflexivity|].
  intros q Hq. unfold T1.
  transitivity (mv 9 (flat 9 (mat_mat9 (mandel2full C) idsym)) (vadd (usym v) (uskew w)) q + rsum 9 (fun r => truesdell_tangent_outer S (9 * q + r)%nat * (usym v r + uskew w r))).
  - unfold mv. rewrite <- rsum_plus. apply rsum_ext. intros r Hr. unfold flat, vadd. ring.
  - f_equal. rewrite mv_vadd, !mv9 by exact Hq.
    rewrite (mv_ext 9 (flat 9 (mandel2full C)) (flat 9 (mandel2full C)) (mv 9 (flat 9 idsym) (usym v)) (usym v)) by (auto using idsym_usym).
    rewrite (mv_ext 9 (flat 9 (mandel2full C)) (flat 9 (mandel2full C)) (mv 9 (flat 9 idsym) (uskew w)) vzero) by (auto using idsym_uskew).
    unfold mv at 2, vzero. rewrite (rsum_ext 9 _ (fun _ => 0)) by (intros; ring). rewrite rsum_0. ring.
Qed.

Lemma D_truesdell_mat : forall (D W : R -> vec) t D' W', path 6 D t D' -> path 3 W t W' ->
  forall i j, (i < 9)%nat -> (j < 9)%nat ->
  is_derive (fun u => flat 9 (truesdell_mat (D u) (W u)) i j) t (flat 9 (truesdell_mat D' W') i j - delta i j).
Proof.
  intros D W t D' W' HD HW i j Hi Hj.
  pose proof (HD 0%nat ltac:(lia)) as D0. pose proof (HD 1%nat ltac:(lia)) as D1. pose proof (HD 2%nat ltac:(lia)) as D2.
  pose proof (HD 3%nat ltac:(lia)) as D3. pose proof (HD 4%nat ltac:(lia)) as D4. pose proof (HD 5%nat ltac:(lia)) as D5.
  pose proof (HW 0%nat ltac:(lia)) as W0. pose proof (HW 1%nat ltac:(lia)) as W1. pose proof (HW 2%nat ltac:(lia)) as W2.
  clear HD HW. pose proof r2_pos as R2. assert (r2 <> 0) by lra.
  cases9 i Hi; cases9 j Hj; cbv [flat Nat.add Nat.mul truesdell_mat delta Nat.eqb];
    (eapply D_eq; [dall; first [assumption | lra] | cbv beta; first [ring | field; assumption]]).
Qed.
Lemma path_usym : forall s t s', path 6 s t s' -> path 9 (fun u => usym (s u)) t (usym s').
Proof.
  intros s t s' H i Hi.
  pose proof (H 0%nat ltac:(lia)) as D0. pose proof (H 1%nat ltac:(lia)) as D1. pose proof (H 2%nat ltac:(lia)) as D2.
  pose proof (H 3%nat ltac:(lia)) as D3. pose proof (H 4%nat ltac:(lia)) as D4. pose proof (H 5%nat ltac:(lia)) as D5.
  clear H. pose proof r2_pos as R2. assert (r2 <> 0) by lra.
  cases9 i Hi; cbv [usym]; (eapply D_eq; [dall; first [assumption | lra] | cbv beta; first [ring | field; assumption]]).
Qed.
Lemma path_sym : forall s t s', path 9 s t s' -> path 6 (fun u => sym (s u)) t (sym s').
Proof.
  intros s t s' H i Hi.
  pose proof (H 0%nat ltac:(lia)) as D0. pose proof (H 1%nat ltac:(lia)) as D1. pose proof (H 2%nat ltac:(lia)) as D2.
  pose proof (H 3%nat ltac:(lia)) as D3. pose proof (H 4%nat ltac:(lia)) as D4. pose proof (H 5%nat ltac:(lia)) as D5.
  pose proof (H 6%nat ltac:(lia)) as D6. pose proof (H 7%nat ltac:(lia)) as D7. pose proof (H 8%nat ltac:(lia)) as D8.
  clear H. pose proof r2_pos as R2. assert (r2 <> 0) by lra.
  cases6 i Hi; cbv [sym]; (eapply D_eq; [dall; first [assumption | lra] | cbv beta; first [ring | field; assumption]]).
Qed.

(** derivative of the total y = x + usym Sn of a family of exact solves *)
Lemma ld_total_derivative : forall Sn (D W dS x : R -> vec) t D' W' dS' Ji,
  path 6 D t D' -> path 3 W t W' -> path 6 dS t dS' ->
  locally t (fun u => truesdell_system (D u) (W u) Sn (dS u) (x u)) ->
  inverse9 Ji (truesdell_mat (D t) (W t)) ->
  path 6 (fun u => truesdell_update_sym (x u) Sn) t
    (sym (mv 9 (flat 9 Ji) (fun p => usym dS' p +
       rsum 9 (fun q => truesdell_tangent_outer (truesdell_update_sym (x t) Sn) (9 * p + q)%nat * (usym D' q + uskew W' q))))).
Proof.
  intros Sn D W dS x t D' W' dS' Ji HD HW HS HL HI.
  set (y := fun u => vadd (x u) (usym Sn)).
  assert (Py : path 9 y t (mv 9 (flat 9 Ji) (vsub (usym dS') (mv 9 (fun i j => flat 9 (truesdell_mat D' W') i j - delta i j) (y t))))).
  { apply (lin_solve_diff 9 (fun u => flat 9 (truesdell_mat (D u) (W u))) (fun u => vadd (usym Sn) (usym (dS u))) y t).
    - intros i j Hi Hj. apply D_truesdell_mat; assumption.
    - intros i Hi. unfold vadd. eapply D_eq; [apply D_plus; [apply D_const | apply (path_usym dS t dS' HS i Hi)]|]. ring.
    - revert HL. apply filter_imp. intros u Hu p Hp. destruct (ij9 p Hp) as (i & j & Hi & Hj & ->).
      rewrite tr_mv by assumption. apply (system_total _ _ _ _ _ Hu i j Hi Hj).
    - intros i j Hi Hj. destruct (HI i j Hi Hj) as [E _]. exact E. }
  assert (Sx : is_sym2 (x t)). { eapply system_sym; [exact HI | exact (locally_singleton _ _ HL)]. }
  assert (E : veq 9 (mv 9 (flat 9 Ji) (vsub (usym dS') (mv 9 (fun i j => flat 9 (truesdell_mat D' W') i j - delta i j) (y t))))
    (mv 9 (flat 9 Ji) (fun p => usym dS' p +
       rsum 9 (fun q => truesdell_tangent_outer (truesdell_update_sym (x t) Sn) (9 * p + q)%nat * (usym D' q + uskew W' q))))).
  { intros p Hp. apply mv_ext; [reflexivity|]. clear p Hp. intros p Hp. unfold vsub.
    replace (usym dS' p - mv 9 (fun i j => flat 9 (truesdell_mat D' W') i j - delta i j) (y t) p) with
      (usym dS' p + (y t p - mv 9 (flat 9 (truesdell_mat D' W')) (y t) p)).
    2:{ unfold mv. rewrite (rsum_ext 9 (fun j => (flat 9 (truesdell_mat D' W') p j - delta p j) * y t j) (fun j => flat 9 (truesdell_mat D' W') p j * y t j - delta p j * y t j)) by (intros; ring).
        rewrite rsum_minus, rsum_delta by exact Hp. ring. }
    f_equal. destruct (ij9 p Hp) as (i & j & Hi & Hj & ->). rewrite tr_mv, truesdell_outer_spec by assumption.
    rewrite (mul2_ext_r _ (t2 (usym (truesdell_update_sym (x t) Sn))) (t2 (y t))), (mul2_ext_l (t2 (usym (truesdell_update_sym (x t) Sn))) (t2 (y t))) by
      (try assumption; intros a b Ha Hb; apply (update_total _ _ Sx); lia).
    assert (Q : t2 (usym (truesdell_update_sym (x t) Sn)) i j = t2 (y t) i j) by (apply (update_total _ _ Sx); lia). rewrite Q.
    change (y t (3 * i + j)%nat) with (t2 (y t) i j). unfold tr_op, trace, mul2, Lof. simpl rsum. unfold t2. ring. }
  assert (P6 : path 6 (fun u => sym (y u)) t (sym (mv 9 (flat 9 Ji) (fun p => usym dS' p +
       rsum 9 (fun q => truesdell_tangent_outer (truesdell_update_sym (x t) Sn) (9 * p + q)%nat * (usym D' q + uskew W' q)))))).
  { apply path_sym. intros p Hp. rewrite <- (E p Hp). apply Py. exact Hp. }
  intros i Hi. eapply D_ext; [|apply P6; exact Hi]. intros u. cbv beta. unfold y. rewrite (sym_vadd _ _ i Hi).
  unfold vadd, truesdell_update_sym. rewrite (sym_usym Sn i Hi). ring.
Qed.

Lemma ld_tangent : forall Sn (D W dS x : R -> vec) t D' W' C Ji,
  path 6 D t D' -> path 3 W t W' -> path 6 dS t (mv 6 (flat 6 C) D') ->
  locally t (fun u => truesdell_system (D u) (W u) Sn (dS u) (x u)) ->
  inverse9 Ji (truesdell_mat (D t) (W t)) ->
  path 6 (fun u => truesdell_update_sym (x u) Sn) t
    (vadd (mv 6 (flat 6 (fst (calc_tangent Ji C (truesdell_update_sym (x t) Sn)))) D')
          (mv 3 (flat 3 (snd (calc_tangent Ji C (truesdell_update_sym (x t) Sn)))) W')).
Proof.
  intros Sn D W dS x t D' W' C Ji HD HW HS HL HI i Hi.
  eapply D_eq; [apply (ld_total_derivative Sn D W dS x t D' W' _ Ji HD HW HS HL HI i Hi)|].
  match goal with |- sym ?a i = ?b i => rewrite <- (sym_usym b i Hi) end. apply sym_veq; [|exact Hi].
  intros p Hp. rewrite (calc_tangent_spec (D t) (W t) Ji C _ HI D' W' p Hp). apply mv_ext; [reflexivity|]. intros q Hq. cbv beta. f_equal.
  destruct (ij9 q Hq) as (a & b & Ha & Hb & ->). rewrite <- ddot42_mv by assumption. rewrite mandel_apply by assumption. reflexivity.
Qed.
