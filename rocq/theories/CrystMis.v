(** Misorientations *)
From Coq Require Import String ZArith Lra Lia Psatz Bool.
From Verif Require Import Base NemlMathModel NemlMathSpec RotModel RotSpec RotProofs TensorModel CrystModel CrystSpec CrystProofs.

Lemma acos_le : forall x y, -1 <= x <= 1 -> -1 <= y <= 1 -> (acos x <= acos y <-> y <= x).
Proof.
  intros x y Hx Hy. split; intros H.
  - rewrite <- (cos_acos x), <- (cos_acos y) by auto.
    destruct (acos_bound x), (acos_bound y). apply cos_decr_1; lra.
  - destruct (Rle_lt_dec (acos x) (acos y)) as [|C]; auto. exfalso.
    assert (X : cos (acos x) < cos (acos y)).
    { destruct (acos_bound x), (acos_bound y). apply cos_decreasing_1; lra. }
    rewrite !cos_acos in X by auto. lra.
Qed.
Lemma acos_m1 : acos (-1) = PI.
Proof. rewrite <- cos_PI. apply acos_cos. pose proof PI_RGT_0; lra. Qed.
Lemma unit_q0 : forall q, unitq q -> -1 <= q0 q <= 1.
Proof. intros q U; unfold unitq in U; nra. Qed.
Lemma raw_unit : forall q, unitq q -> raw_angle q = 2 * acos (q0 q).
Proof.
  intros q U; pose proof (unit_q0 q U). unfold raw_angle. rewrite Rmin_left, Rmax_right by lra; reflexivity.
Qed.
Lemma raw_le : forall p q, unitq p -> unitq q -> (raw_angle p <= raw_angle q <-> q0 q <= q0 p).
Proof.
  intros p q Up Uq. rewrite !raw_unit by auto.
  rewrite <- (acos_le (q0 p) (q0 q)) by (now apply unit_q0). split; lra.
Qed.
Lemma raw_2pi : forall q, unitq q -> raw_angle q <= 2 * PI.
Proof. intros q U; rewrite raw_unit by auto. destruct (acos_bound (q0 q)); lra. Qed.
Lemma raw_2pi_inv : forall q, unitq q -> 2 * PI <= raw_angle q -> q0 q = -1.
Proof.
  intros q U H. rewrite raw_unit in H by auto. pose proof (unit_q0 q U). destruct (acos_bound (q0 q)).
  assert (E : acos (q0 q) = PI) by lra. rewrite <- (cos_acos (q0 q)), E, cos_PI by auto; reflexivity.
Qed.

Lemma mis_loop_spec : forall ms ab best A,
  (mis_loop ms ab best A = best /\ forall m, In m ms -> A <= raw_angle (qmul m ab)) \/
  (exists m, In m ms /\ mis_loop ms ab best A = qmul m ab /\ raw_angle (qmul m ab) < A /\
     forall m', In m' ms -> raw_angle (qmul m ab) <= raw_angle (qmul m' ab)).
Proof.
  induction ms as [|m r IH]; intros ab best A; cbn [mis_loop].
  - left; split; auto. intros m [].
  - cbv zeta. destruct (Rlt_dec (raw_angle (qmul m ab)) A) as [L|L].
    + right. destruct (IH ab (qmul m ab) (raw_angle (qmul m ab))) as [[E H]|(m' & Hm & E & HA & H)].
      * exists m; split; [now left|]. split; [exact E|]. split; auto. intros m' [<-|Hm']; [lra|auto].
      * exists m'; split; [now right|]. split; [exact E|]. split; [lra|]. intros m2 [<-|Hm2]; [lra|auto].
    + destruct (IH ab best A) as [[E H]|(m' & Hm & E & HA & H)].
      * left; split; auto. intros m' [<-|Hm']; [lra|auto].
      * right; exists m'; split; [now right|]. split; [exact E|]. split; auto. intros m2 [<-|Hm2]; [lra|auto].
Qed.

Lemma misops_unit : forall l, (forall a, In a l -> unitq a) -> forall m, In m (misops l) -> unitq m.
Proof.
  intros l H m Hm. unfold misops in Hm; apply in_flat_map in Hm as (a & Ha & Hm). apply in_map_iff in Hm as (b & <- & Hb).
  apply unitq_mul; auto.
Qed.
Lemma misops_in : forall l m, rot_group l -> In m (misops l) -> exists c, In c l /\ (m = c \/ m = qopp c).
Proof.
  intros l m (U & _ & Cl & _) Hm. unfold misops in Hm; apply in_flat_map in Hm as (a & Ha & Hm).
  apply in_map_iff in Hm as (b & <- & Hb). destruct (Cl a b Ha Hb) as (c & Hc & S). exists c; split; auto.
  apply same_matrix; auto; [apply unitq_mul; auto|now apply same_turn_sym].
Qed.
Lemma odiv_unit : forall a b, unitq a -> unitq b -> unitq (odiv a b).
Proof. intros; unfold odiv; apply unitq_mul; auto; now apply unitq_conj. Qed.
Lemma q0_cyclic : forall a b, q0 (qmul a b) = q0 (qmul b a).
Proof. intros; unfold qmul; cbn; ring. Qed.
Lemma qmul_opp_l : forall a b, qmul (qopp a) b = qopp (qmul a b).
Proof. intros a b; apply quat_ext; unfold qmul, qopp; cbn; ring. Qed.
Lemma q0_opp : forall a, q0 (qopp a) = - q0 a. Proof. reflexivity. Qed.
(** the scalar part of (S a)(T b)^-1 is that of (T^-1 S)(a b^-1) *)
Lemma equiv_q0 : forall S T a b, q0 (odiv (qmul S a) (qmul T b)) = q0 (qmul (qmul (qconj T) S) (odiv a b)).
Proof.
  intros; unfold odiv, oinv. rewrite qconj_mul.
  replace (qmul (qmul S a) (qmul (qconj b) (qconj T))) with (qmul (qmul S (qmul a (qconj b))) (qconj T)) by (now rewrite !qmul_assoc).
  rewrite q0_cyclic. f_equal. now rewrite !qmul_assoc.
Qed.
Lemma turn_angle_le : forall p q, unitq p -> unitq q -> Rabs (q0 q) <= Rabs (q0 p) -> turn_angle p <= turn_angle q.
Proof.
  intros p q Up Uq H. unfold turn_angle. apply Rmult_le_compat_l; [lra|].
  pose proof (unit_q0 p Up); pose proof (unit_q0 q Uq).
  apply acos_le; auto; split; try (apply Rabs_le; lra); match goal with |- _ <= Rabs ?x => pose proof (Rabs_pos x); lra end.
Qed.

Lemma group_quotient : forall l S T, rot_group l -> In S l -> In T l -> exists c, In c l /\ (qmul (qconj T) S = c \/ qmul (qconj T) S = qopp c).
Proof.
  intros l S T (U & _ & Cl & Inv & _) HS HT.
  destruct (Inv T HT) as (t & Ht & St). destruct (Cl t S Ht HS) as (c & Hc & Sc). exists c; split; auto.
  assert (E : t = qconj T \/ t = qopp (qconj T)) by (apply same_matrix; auto; apply unitq_conj; auto).
  assert (F : qmul t S = c \/ qmul t S = qopp c) by (apply same_matrix; auto; [apply unitq_mul; auto|now apply same_turn_sym]).
  assert (OO : forall q, qopp (qopp q) = q) by (intros [? ? ? ?]; unfold qopp; cbn; f_equal; ring).
  destruct E as [E|E]; rewrite E in F; [exact F|].
  rewrite qmul_opp_l in F. destruct F as [F|F].
  - right; rewrite <- F; now rewrite OO.
  - left; apply (f_equal qopp) in F; now rewrite !OO in F.
Qed.

Definition signed (l : list quat) : Prop := forall q, In q l -> In q (misops l) /\ In (qopp q) (misops l).

Lemma mis_minimal : forall l a b, rot_group l -> signed l -> unitq a -> unitq b ->
  let r := misorientation l a b in
  unitq r /\ 0 <= q0 r /\ (exists S, In S l /\ same_turn r (qmul S (odiv a b))) /\
  (exists m, In m (misops l) /\ r = qmul m (odiv a b) /\ raw_angle r < 2 * PI) /\
  forall S T, In S l -> In T l -> turn_angle r <= turn_angle (odiv (qmul S a) (qmul T b)).
Proof.
  intros l a b G Sg Ua Ub r. pose proof (odiv_unit a b Ua Ub) as Uab.
  pose proof (misops_unit l (proj1 G)) as UM.
  destruct (mis_loop_spec (misops l) (odiv a b) qdefault (2 * PI)) as [[E H]|(m & Hm & E & HA & H)].
  - exfalso. destruct G as (U & (e & He & _) & _). destruct (Sg e He) as [H1 H2].
    pose proof (H _ H1) as K1; pose proof (H _ H2) as K2.
    apply raw_2pi_inv in K1; [|apply unitq_mul; auto]. apply raw_2pi_inv in K2; [|apply unitq_mul; auto].
    rewrite qmul_opp_l, q0_opp in K2; lra.
  - fold (misorientation l a b) in E; change (misorientation l a b) with r in E.
    assert (Ur : unitq r) by (rewrite E; apply unitq_mul; auto).
    assert (M : forall m', In m' (misops l) -> q0 (qmul m' (odiv a b)) <= q0 r).
    { intros m' Hm'. rewrite E. apply raw_le; auto; apply unitq_mul; auto. }
    assert (C : forall c, In c l -> Rabs (q0 (qmul c (odiv a b))) <= q0 r).
    { intros c Hc. destruct (Sg c Hc) as [H1 H2]. pose proof (M _ H1) as K1; pose proof (M _ H2) as K2.
      rewrite qmul_opp_l, q0_opp in K2. apply Rabs_le; lra. }
    destruct (misops_in l m G Hm) as (c & Hc & Em).
    assert (P : 0 <= q0 r) by (pose proof (C c Hc); pose proof (Rabs_pos (q0 (qmul c (odiv a b)))); lra).
    split; [exact Ur|]. split; [exact P|]. split; [|split].
    + exists c; split; auto. rewrite E. destruct Em as [->| ->]; [apply same_turn_refl|].
      rewrite qmul_opp_l; apply same_turn_opp.
    + exists m; split; auto. rewrite <- E in HA. split; auto.
    + intros S T HS HT. destruct (group_quotient l S T G HS HT) as (d & Hd & Ed).
      apply turn_angle_le; auto.
      { apply odiv_unit; apply unitq_mul; auto; now apply (proj1 G). }
      rewrite equiv_q0, (Rabs_right (q0 r)) by lra.
      destruct Ed as [-> | ->]; [auto|]. rewrite qmul_opp_l, q0_opp, Rabs_Ropp; auto.
Qed.

Lemma turn_angle_def : forall q, unitq q -> 0 <= q0 q -> raw_angle q = turn_angle q.
Proof. intros q U P; rewrite raw_unit by auto; unfold turn_angle; rewrite Rabs_right by lra; reflexivity. Qed.
Lemma same_turn_mul : forall a b c, unitq a -> unitq b -> unitq c -> same_turn a b -> same_turn (qmul a c) (qmul b c).
Proof.
  intros a b c Ua Ub Uc S. destruct (same_matrix a b Ua Ub S) as [->| ->]; [apply same_turn_refl|].
  rewrite qmul_opp_l; apply same_turn_opp.
Qed.

Lemma misorientation_class : forall s l a b, symmetry_rotations s = Some l -> signed_class s -> unitq a -> unitq b ->
  let r := misorientation l a b in
  unitq r /\ (exists S, In S l /\ same_turn r (qmul S (odiv a b))) /\ raw_angle r = turn_angle r /\
  forall S T, In S l -> In T l -> turn_angle r <= turn_angle (odiv (qmul S a) (qmul T b)).
Proof.
  intros s l a b H K Ua Ub r.
  destruct (mis_minimal l a b (symmetry_group s l H) (symmetry_signs s l H K) Ua Ub) as (U & P & E & _ & M).
  fold r in U, P, E, M. repeat split; auto. now apply turn_angle_def.
Qed.

(** ** Classes with a sign missing *)
Definition zsign_missing (D : Z) (l : list zq) : bool :=
  existsb (fun s => negb (existsb (fun a => existsb (fun b => zqeq (zqmap (zscal 2) (zqopp s)) (zqmul D a b)) l) l)) l.
Lemma zsign_missing_ok : forall D l, (D = 2 \/ D = 3)%Z -> zsign_missing D l = true ->
  exists m, In m (map (evq D) l) /\ ~ In (qopp m) (misops (map (evq D) l)).
Proof.
  intros D l HD H. apply existsb_exists in H as (s & Hs & H). exists (evq D s); split; [now apply in_map|].
  intros C. apply negb_true_iff in H.
  unfold misops in C; apply in_flat_map in C as (a & Ha & C). apply in_map_iff in C as (b & E & Hb).
  apply in_map_iff in Ha as (x & <- & Hx), Hb as (y & <- & Hy).
  assert (K : existsb (fun a => existsb (fun b => zqeq (zqmap (zscal 2) (zqopp s)) (zqmul D a b)) l) l = true); [|congruence].
  apply existsb_exists; exists x; split; auto. apply existsb_exists; exists y; split; auto.
  assert (F : zqmap (zscal 2) (zqopp s) = zqmul D x y).
  { apply (evq_inj D); auto. rewrite evq_scal, evq_mul, evq_opp by lia. now rewrite E. }
  rewrite F; apply zqeq_refl.
Qed.
Definition unsigned_class (s : string) : Prop := In s ["6"; "3"; "4"; "2"; "1"]%string.
Lemma unsigned_missing : forall s l, symmetry_rotations s = Some l -> unsigned_class s ->
  exists m, In m l /\ ~ In (qopp m) (misops l).
Proof.
  intros s l H K. destruct (class_z s l H) as (D & z & E & -> & HD). apply zsign_missing_ok; auto.
  unfold unsigned_class in K; cbn [In] in K.
  repeat (destruct K as [<-|K]; [vm_compute in E; injection E as <- <-; vm_compute; reflexivity|]). destruct K.
Qed.
Lemma q0_one : forall q, unitq q -> q0 q = 1 -> q = qone.
Proof.
  intros [a b c d] U E; unfold unitq in U; cbn in U, E; subst. unfold qone.
  assert (b = 0) by nra. assert (c = 0) by nra. assert (d = 0) by nra. now subst.
Qed.
Lemma turn_angle_pos : forall q, unitq q -> q0 q <> 1 -> q0 q <> -1 -> 0 < turn_angle q.
Proof.
  intros q U A B. pose proof (unit_q0 q U). unfold turn_angle.
  assert (L : -1 < Rabs (q0 q) < 1).
  { split; [pose proof (Rabs_pos (q0 q)); lra|]. apply Rabs_def1; lra. }
  pose proof (acos_bound_lt _ L); lra.
Qed.
Lemma turn_angle_zero : forall q, q0 q = 1 \/ q0 q = -1 -> turn_angle q = 0.
Proof.
  intros q [E|E]; unfold turn_angle; rewrite E; [rewrite Rabs_right by lra|rewrite Rabs_left by lra; replace (- -1) with 1 by ring]; rewrite acos_1; ring.
Qed.
Lemma misorientation_unsigned : forall s l, symmetry_rotations s = Some l -> unsigned_class s ->
  exists a b S T, unitq a /\ unitq b /\ In S l /\ In T l /\
    turn_angle (odiv (qmul S a) (qmul T b)) = 0 /\ 0 < turn_angle (misorientation l a b).
Proof.
  intros s l H K. destruct (unsigned_missing s l H K) as (m & Hm & Hn).
  pose proof (symmetry_group s l H) as G. destruct G as (U & (e & He & Se) & Rest).
  assert (Um : unitq m) by auto.
  assert (U1 : unitq qone) by (unfold unitq, qone; cbn; ring).
  exists (qopp (qconj m)), qone, m, e.
  assert (Ua : unitq (qopp (qconj m))) by (apply unitq_opp; now apply unitq_conj).
  split; [exact Ua|]. split; [exact U1|]. split; [exact Hm|]. split; [exact He|].
  assert (Ee : e = qone \/ e = qopp qone) by (apply same_matrix; auto).
  assert (N : nsq m = 1) by exact Um.
  split.
  - apply turn_angle_zero. rewrite equiv_q0.
    assert (X : qmul m (odiv (qopp (qconj m)) qone) = qopp qone).
    { unfold odiv. replace (oinv qone) with qone by (unfold oinv, qconj, qone; cbn; f_equal; ring).
      rewrite qmul_one_r. transitivity (qopp (qmul m (qconj m))).
      - apply quat_ext; unfold qmul, qopp, qconj; cbn; ring.
      - now rewrite qmul_conj_r. }
    rewrite <- qmul_assoc, X. destruct Ee as [-> | ->]; unfold qmul, qopp, qconj, qone; cbn; [right|left]; ring.
  - set (ab := odiv (qopp (qconj m)) qone).
    assert (Uab : unitq ab) by (apply odiv_unit; auto).
    assert (Eab : ab = qopp (qconj m)).
    { unfold ab, odiv. replace (oinv qone) with qone by (unfold oinv, qconj, qone; cbn; f_equal; ring). apply qmul_one_r. }
    pose proof (misops_unit l U) as UM.
    unfold misorientation; fold ab.
    destruct (mis_loop_spec (misops l) ab qdefault (2 * PI)) as [[E _]|(c & Hc & E & HA & _)]; rewrite E.
    + unfold turn_angle, qdefault; cbn [q0]. rewrite Rabs_R0.
      assert (B : -1 < 0 < 1) by lra. pose proof (acos_bound_lt 0 B); lra.
    + assert (Uc : unitq (qmul c ab)) by (apply unitq_mul; auto).
      apply turn_angle_pos; auto.
      * intros C. apply q0_one in C; auto. apply Hn.
        assert (c = qopp m); [|now subst].
        apply (f_equal (fun q => qmul q (qopp m))) in C.
        rewrite qmul_one_l, <- qmul_assoc, Eab in C.
        assert (Y : qmul (qopp (qconj m)) (qopp m) = qone).
        { transitivity (qmul (qconj m) m); [apply quat_ext; unfold qmul, qopp; cbn; ring|now apply qmul_conj_l]. }
        rewrite Y, qmul_one_r in C. exact C.
      * intros C. rewrite raw_unit, C, acos_m1 in HA by auto. lra.
Qed.

(** ** Blocks *)
Lemma prod_row_mul : forall m v, O4 (prod_row m v 0) (prod_row m v 1) (prod_row m v 2) (prod_row m v 3) = normalize_ (qmul m v).
Proof.
  intros m v. unfold O4, mk_orientation. f_equal. apply quat_ext; unfold prod_row, to_product_matrix, qmul; cbn; ring.
Qed.
Lemma prod_row_q0 : forall m v, prod_row m v 0 = q0 (qmul m v).
Proof. intros; unfold prod_row, to_product_matrix, qmul; cbn; ring. Qed.
Lemma block_mis : forall ms v best A, (forall m, In m ms -> unitq m) -> unitq v ->
  block_loop ms v (Some best) A = Some (mis_loop ms v best A).
Proof.
  induction ms as [|m r IH]; intros v best A U Uv; cbn [block_loop mis_loop]; auto.
  cbv zeta. rewrite prod_row_mul, prod_row_q0, normalize_id by (apply unitq_mul; auto; apply U; now left).
  rewrite (Rmin_comm 1 (q0 (qmul m v))). fold (raw_angle (qmul m v)).
  destruct (Rlt_dec (raw_angle (qmul m v)) A); apply IH; auto; intros; apply U; now right.
Qed.
Lemma mis_loop_best : forall ms v b1 b2 A, (exists m, In m ms /\ raw_angle (qmul m v) < A) ->
  mis_loop ms v b1 A = mis_loop ms v b2 A.
Proof.
  induction ms as [|m r IH]; intros v b1 b2 A (x & Hx & L); [destruct Hx|]. cbn [mis_loop]; cbv zeta.
  destruct (Rlt_dec (raw_angle (qmul m v)) A) as [|N]; auto. apply IH. destruct Hx as [<-|Hx]; [contradiction|eauto].
Qed.
Lemma block_mis_start : forall ms v, (forall m, In m ms -> unitq m) -> unitq v ->
  (exists m, In m ms /\ raw_angle (qmul m v) < 2 * PI) ->
  block_loop ms v None (3 * PI) = Some (mis_loop ms v qdefault (2 * PI)).
Proof.
  intros ms v U Uv E. destruct ms as [|m r]; [destruct E as (x & [] & _)|].
  cbn [block_loop mis_loop]; cbv zeta.
  assert (Um : unitq (qmul m v)) by (apply unitq_mul; auto; apply U; now left).
  rewrite prod_row_mul, prod_row_q0, normalize_id by auto.
  rewrite (Rmin_comm 1 (q0 (qmul m v))). fold (raw_angle (qmul m v)).
  pose proof (raw_2pi _ Um). pose proof PI_RGT_0.
  destruct (Rlt_dec (raw_angle (qmul m v)) (3 * PI)) as [|C]; [|lra].
  rewrite block_mis by (auto; intros; apply U; now right). f_equal.
  destruct (Rlt_dec (raw_angle (qmul m v)) (2 * PI)) as [|N]; auto.
  replace (raw_angle (qmul m v)) with (2 * PI) by lra. apply mis_loop_best.
  destruct E as (x & [<-|Hx] & L); [lra|eauto].
Qed.
Lemma opt_list_all : forall A B (f : A -> option B) (g : A -> B) l, (forall x, In x l -> f x = Some (g x)) ->
  opt_list (map f l) = Some (map g l).
Proof.
  intros A B f g l; induction l as [|x r IH]; intros H; cbn; auto.
  rewrite (H x) by (now left). rewrite IH; auto. intros; apply H; now right.
Qed.
Lemma block_class : forall s l A B, symmetry_rotations s = Some l -> signed_class s ->
  length A = length B -> (forall q, In q A -> unitq q) -> (forall q, In q B -> unitq q) ->
  misorientation_block l A B = Some (map (fun ab => misorientation l (fst ab) (snd ab)) (combine A B)).
Proof.
  intros s l A B H K E UA UB. unfold misorientation_block. rewrite (proj2 (Nat.eqb_eq _ _) E).
  apply opt_list_all. intros [a b] Hab.
  assert (Ua : unitq a) by (apply UA; eapply in_combine_l; eauto).
  assert (Ub : unitq b) by (apply UB; eapply in_combine_r; eauto).
  cbn [fst snd]. unfold misorientation. pose proof (symmetry_group s l H) as G.
  apply block_mis_start.
  - apply misops_unit, (proj1 G).
  - now apply odiv_unit.
  - destruct (mis_minimal l a b G (symmetry_signs s l H K) Ua Ub) as (_ & _ & _ & (m & Hm & Em & L) & _).
    exists m; split; auto. now rewrite <- Em.
Qed.
Lemma block_size : forall l A B, length A <> length B -> misorientation_block l A B = None.
Proof. intros l A B H; unfold misorientation_block. apply Nat.eqb_neq in H; now rewrite H. Qed.
