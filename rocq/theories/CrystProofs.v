(** Symmetry groups: decided by computing with numbers (p + q sqrt D) / 2 *)
From Coq Require Import String ZArith Lra Lia Psatz Bool.
From Verif Require Import Base NemlMathModel NemlMathSpec RotModel RotSpec RotProofs TensorModel CrystModel CrystSpec.

(** ** Quaternions with components (p + q sqrt D) / 2 *)
Definition zn := (Z * Z)%type.
Record zq := ZQ { z0 : zn; z1 : zn; z2 : zn; z3 : zn }.
Definition ev (D : Z) (x : zn) : R := (IZR (fst x) + IZR (snd x) * sqrt (IZR D)) / 2.
Definition evq (D : Z) (a : zq) : quat := Quat (ev D (z0 a)) (ev D (z1 a)) (ev D (z2 a)) (ev D (z3 a)).
Definition zmul (D : Z) (x y : zn) : zn := (fst x * fst y + D * snd x * snd y, fst x * snd y + snd x * fst y)%Z.
Definition zadd (x y : zn) : zn := (fst x + fst y, snd x + snd y)%Z.
Definition zopp (x : zn) : zn := (- fst x, - snd x)%Z.
Definition zscal (k : Z) (x : zn) : zn := (k * fst x, k * snd x)%Z.
Definition zqmap (f : zn -> zn) (a : zq) : zq := ZQ (f (z0 a)) (f (z1 a)) (f (z2 a)) (f (z3 a)).
(** twice the product *)
Definition zqmul (D : Z) (a b : zq) : zq :=
  let m := zmul D in
  ZQ (zadd (m (z0 a) (z0 b)) (zopp (zadd (m (z1 a) (z1 b)) (zadd (m (z2 a) (z2 b)) (m (z3 a) (z3 b))))))
     (zadd (zadd (m (z0 a) (z1 b)) (m (z1 a) (z0 b))) (zadd (m (z2 a) (z3 b)) (zopp (m (z3 a) (z2 b)))))
     (zadd (zadd (m (z0 a) (z2 b)) (m (z2 a) (z0 b))) (zadd (m (z3 a) (z1 b)) (zopp (m (z1 a) (z3 b)))))
     (zadd (zadd (m (z0 a) (z3 b)) (m (z3 a) (z0 b))) (zadd (m (z1 a) (z2 b)) (zopp (m (z2 a) (z1 b))))).
Definition zneq (x y : zn) : bool := ((fst x =? fst y) && (snd x =? snd y))%Z%bool.
Definition zqeq (a b : zq) : bool := (zneq (z0 a) (z0 b) && zneq (z1 a) (z1 b) && zneq (z2 a) (z2 b) && zneq (z3 a) (z3 b))%bool.
Definition zqconj (a : zq) : zq := ZQ (z0 a) (zopp (z1 a)) (zopp (z2 a)) (zopp (z3 a)).
Definition zqopp (a : zq) : zq := zqmap zopp a.

Lemma sqrtD : forall D, (0 <= D)%Z -> sqrt (IZR D) * sqrt (IZR D) = IZR D.
Proof. intros; apply sqrt_sqrt; now apply (IZR_le 0). Qed.
Lemma ev_add : forall D x y, ev D (zadd x y) = ev D x + ev D y.
Proof. intros D [a b] [c d]; unfold ev, zadd; cbn [fst snd]; rewrite !plus_IZR; field. Qed.
Lemma ev_opp : forall D x, ev D (zopp x) = - ev D x.
Proof. intros D [a b]; unfold ev, zopp; cbn [fst snd]; rewrite !opp_IZR; field. Qed.
Lemma ev_scal : forall D k x, ev D (zscal k x) = IZR k * ev D x.
Proof. intros D k [a b]; unfold ev, zscal; cbn [fst snd]; rewrite !mult_IZR; field. Qed.
Lemma ev_mul : forall D x y, (0 <= D)%Z -> ev D (zmul D x y) = 2 * (ev D x * ev D y).
Proof.
  intros D [a b] [c d] H; unfold ev, zmul; cbn [fst snd]; rewrite !plus_IZR, !mult_IZR.
  transitivity ((IZR a * IZR c + (sqrt (IZR D) * sqrt (IZR D)) * IZR b * IZR d + (IZR a * IZR d + IZR b * IZR c) * sqrt (IZR D)) / 2).
  - rewrite sqrtD by auto; reflexivity.
  - field.
Qed.
Lemma evq_mul : forall D a b, (0 <= D)%Z -> evq D (zqmul D a b) = qsmul 2 (qmul (evq D a) (evq D b)).
Proof.
  intros D a b H; unfold evq, zqmul, qmul, qsmul; cbn [z0 z1 z2 z3 q0 q1 q2 q3].
  rewrite !ev_add, !ev_opp, !ev_add, !ev_mul by auto; f_equal; ring.
Qed.
Lemma zneq_eq : forall x y, zneq x y = true -> x = y.
Proof. intros [a b] [c d] H; unfold zneq in H; cbn in H; apply andb_prop in H as [H1 H2]; apply Z.eqb_eq in H1, H2; now subst. Qed.
Lemma zqeq_eq : forall x y, zqeq x y = true -> x = y.
Proof.
  intros [a b c d] [e f g h] H; unfold zqeq in H; cbn [z0 z1 z2 z3] in H.
  apply andb_prop in H as [H H4]; apply andb_prop in H as [H H3]; apply andb_prop in H as [H1 H2].
  apply zneq_eq in H1, H2, H3, H4; now subst.
Qed.
Lemma evq_opp : forall D a, evq D (zqopp a) = qopp (evq D a).
Proof. intros; unfold evq, zqopp, zqmap, qopp; cbn; rewrite !ev_opp; reflexivity. Qed.
Lemma evq_conj : forall D a, evq D (zqconj a) = qconj (evq D a).
Proof. intros; unfold evq, zqconj, qconj; cbn; rewrite !ev_opp; reflexivity. Qed.
Lemma evq_scal : forall D a, evq D (zqmap (zscal 2) a) = qsmul 2 (evq D a).
Proof. intros; unfold evq, zqmap, qsmul; cbn [z0 z1 z2 z3 q0 q1 q2 q3]; rewrite !ev_scal; f_equal; ring. Qed.
Lemma qsmul_inj : forall k a b, k <> 0 -> qsmul k a = qsmul k b -> a = b.
Proof. intros k [a0 a1 a2 a3] [b0 b1 b2 b3] Hk H; unfold qsmul in H; cbn in H; injection H; intros; f_equal; nra. Qed.

(** ** The checker *)
Definition zunit (D : Z) (a : zq) : bool :=
  let m := zmul D in
  zneq (zadd (zadd (m (z0 a) (z0 a)) (m (z1 a) (z1 a))) (zadd (m (z2 a) (z2 a)) (m (z3 a) (z3 a)))) (4, 0)%Z.
Definition zid : zq := ZQ (2, 0)%Z (0, 0)%Z (0, 0)%Z (0, 0)%Z.
Definition zsame (a b : zq) : bool := (zqeq a b || zqeq a (zqopp b))%bool.
Definition zmem (a : zq) (l : list zq) : bool := existsb (fun c => zqeq (zqmap (zscal 2) c) a) l.
(** is the product a b, in halves, plus or minus a member *)
Definition zprod_in (D : Z) (a b : zq) (l : list zq) : bool :=
  existsb (fun c => zsame (zqmap (zscal 2) c) (zqmul D a b)) l.
Fixpoint zdistinct (l : list zq) : bool :=
  match l with [] => true | a :: r => (forallb (fun b => negb (zsame a b)) r && zdistinct r)%bool end.
Definition zgroup (D : Z) (l : list zq) : bool :=
  (forallb (zunit D) l && existsb (zsame zid) l
   && forallb (fun a => forallb (fun b => zprod_in D a b l) l) l
   && forallb (fun a => existsb (fun c => zsame c (zqconj a)) l) l && zdistinct l)%bool.
(** both signs of every element occur among the products of two elements *)
Definition zsigns (D : Z) (l : list zq) : bool :=
  forallb (fun s =>
     (existsb (fun a => existsb (fun b => zqeq (zqmap (zscal 2) s) (zqmul D a b)) l) l
      && existsb (fun a => existsb (fun b => zqeq (zqmap (zscal 2) (zqopp s)) (zqmul D a b)) l) l)%bool) l.

Lemma same_turn_refl : forall a, same_turn a a.
Proof. intros a i j _ _; reflexivity. Qed.
Lemma same_turn_opp : forall a, same_turn (qopp a) a.
Proof. intros a; apply to_matrix_opp. Qed.
Lemma same_turn_sym : forall a b, same_turn a b -> same_turn b a.
Proof. intros a b H i j Hi Hj; symmetry; auto. Qed.
Lemma same_turn_trans : forall a b c, same_turn a b -> same_turn b c -> same_turn a c.
Proof. intros a b c H K i j Hi Hj; rewrite H, K; auto. Qed.
Lemma zsame_turn : forall D a b, zsame a b = true -> evq D a = evq D b \/ evq D a = qopp (evq D b).
Proof.
  intros D a b H; apply orb_prop in H as [H|H]; apply zqeq_eq in H; subst; [now left|right; apply evq_opp].
Qed.
Lemma zsame_same : forall D a b, zsame a b = true -> same_turn (evq D a) (evq D b).
Proof. intros D a b H; destruct (zsame_turn D a b H) as [->| ->]; [apply same_turn_refl|apply same_turn_opp]. Qed.
Lemma qopp_smul : forall k q, qopp (qsmul k q) = qsmul k (qopp q).
Proof. intros k [a b c d]; unfold qopp, qsmul; cbn; f_equal; ring. Qed.

(** linear independence of 1 and sqrt D for D not a square: decides inequality *)
Lemma sqrt2_irr : forall p q : Z, IZR p + IZR q * sqrt 2 = 0 -> p = 0%Z /\ q = 0%Z.
Proof.
  intros p q H. assert (E : (p * p = 2 * (q * q))%Z).
  { apply eq_IZR; rewrite !mult_IZR. assert (S : sqrt 2 * sqrt 2 = 2) by (apply sqrt_sqrt; lra).
    assert (P : IZR p = - (IZR q * sqrt 2)) by lra. rewrite P.
    transitivity (IZR q * IZR q * (sqrt 2 * sqrt 2)); [ring|rewrite S; ring]. }
  destruct (Z.eq_dec q 0) as [->|N]; [split; nia|exfalso].
  clear H. assert (G : forall n : nat, forall p q, (Z.abs q < Z.of_nat n)%Z -> q <> 0%Z -> (p * p = 2 * (q * q))%Z -> False).
  { induction n as [|n IH]; intros p' q' L N' E'; [lia|].
    assert (Ep : (p' mod 2 = 0)%Z).
    { destruct (Z.eq_dec (p' mod 2) 0) as [|M]; auto. exfalso.
      assert (p' mod 2 = 1)%Z by (pose proof (Z.mod_pos_bound p' 2); lia).
      pose proof (Z.div_mod p' 2). assert (p' = 2 * (p' / 2) + 1)%Z by lia. nia. }
    pose proof (Z.div_mod p' 2). set (k := (p' / 2)%Z) in *. assert (p' = 2 * k)%Z by lia.
    assert (E2 : (q' * q' = 2 * (k * k))%Z) by nia.
    apply (IH q' k); nia. }
  apply (G (S (Z.abs_nat q)) p q); auto; lia.
Qed.
Lemma sqrt3_irr : forall p q : Z, IZR p + IZR q * sqrt 3 = 0 -> p = 0%Z /\ q = 0%Z.
Proof.
  intros p q H. assert (E : (p * p = 3 * (q * q))%Z).
  { apply eq_IZR; rewrite !mult_IZR. assert (S : sqrt 3 * sqrt 3 = 3) by (apply sqrt_sqrt; lra).
    assert (P : IZR p = - (IZR q * sqrt 3)) by lra. rewrite P.
    transitivity (IZR q * IZR q * (sqrt 3 * sqrt 3)); [ring|rewrite S; ring]. }
  destruct (Z.eq_dec q 0) as [->|N]; [split; nia|exfalso].
  clear H. assert (G : forall n : nat, forall p q, (Z.abs q < Z.of_nat n)%Z -> q <> 0%Z -> (p * p = 3 * (q * q))%Z -> False).
  { induction n as [|n IH]; intros p' q' L N' E'; [lia|].
    assert (Ep : (p' mod 3 = 0)%Z).
    { destruct (Z.eq_dec (p' mod 3) 0) as [|M]; auto. exfalso.
      pose proof (Z.mod_pos_bound p' 3). pose proof (Z.div_mod p' 3).
      assert (C : (p' mod 3 = 1 \/ p' mod 3 = 2)%Z) by lia. destruct C as [C|C]; rewrite C in *; nia. }
    pose proof (Z.div_mod p' 3). set (k := (p' / 3)%Z) in *. assert (p' = 3 * k)%Z by lia.
    assert (E2 : (q' * q' = 3 * (k * k))%Z) by nia.
    apply (IH q' k); nia. }
  apply (G (S (Z.abs_nat q)) p q); auto; lia.
Qed.
Lemma ev_inj : forall D x y, (D = 2 \/ D = 3)%Z -> ev D x = ev D y -> x = y.
Proof.
  intros D [a b] [c d] HD H; unfold ev in H; cbn [fst snd] in H.
  assert (E : IZR (a - c) + IZR (b - d) * sqrt (IZR D) = 0) by (rewrite !minus_IZR; lra).
  assert (E2 : (a - c = 0 /\ b - d = 0)%Z) by (destruct HD as [->| ->]; [now apply sqrt2_irr|now apply sqrt3_irr]).
  f_equal; lia.
Qed.
Lemma evq_inj : forall D a b, (D = 2 \/ D = 3)%Z -> evq D a = evq D b -> a = b.
Proof.
  intros D [a0 a1 a2 a3] [b0 b1 b2 b3] HD H; unfold evq in H; cbn in H; injection H; intros.
  f_equal; eapply ev_inj; eauto.
Qed.
Lemma zneq_refl : forall x, zneq x x = true.
Proof. intros [a b]; unfold zneq; cbn; now rewrite !Z.eqb_refl. Qed.
Lemma zqeq_refl : forall x, zqeq x x = true.
Proof. intros [a b c d]; unfold zqeq; cbn [z0 z1 z2 z3]; now rewrite !zneq_refl. Qed.

Lemma zunit_ok : forall D a, (0 <= D)%Z -> zunit D a = true -> unitq (evq D a).
Proof.
  intros D a HD H; apply zneq_eq in H. apply (f_equal (ev D)) in H. rewrite !ev_add, !ev_mul in H by auto.
  unfold unitq, evq; cbn [q0 q1 q2 q3]. unfold ev at 9 in H; cbn [fst snd] in H. lra.
Qed.

Lemma zdistinct_ok : forall D l, (D = 2 \/ D = 3)%Z -> (forall a, In a l -> unitq (evq D a)) -> zdistinct l = true ->
  forall i j a b, nth_error l i = Some a -> nth_error l j = Some b -> same_turn (evq D a) (evq D b) -> i = j.
Proof.
  intros D l HD. induction l as [|x r IH]; intros HU H i j a b Hi Hj S; [destruct i; discriminate|].
  cbn [zdistinct] in H; apply andb_prop in H as [H1 H2]; rewrite forallb_forall in H1.
  assert (K : forall y, In y r -> ~ same_turn (evq D x) (evq D y)).
  { intros y Hy C. specialize (H1 y Hy). apply negb_true_iff in H1.
    assert (zsame x y = true); [|congruence].
    destruct (same_matrix (evq D x) (evq D y)) as [E|E]; auto; try (apply HU; cbn; auto).
    - apply evq_inj in E; auto; subst. unfold zsame; rewrite zqeq_refl; reflexivity.
    - rewrite <- evq_opp in E; apply evq_inj in E; auto; subst. unfold zsame; rewrite zqeq_refl, orb_true_r; reflexivity. }
  destruct i as [|i], j as [|j]; cbn in Hi, Hj; auto.
  - injection Hi as <-. exfalso; apply (K b); auto. eapply nth_error_In; eauto.
  - injection Hj as <-. exfalso; apply (K a); [eapply nth_error_In; eauto|now apply same_turn_sym].
  - f_equal; eapply IH; eauto. intros; apply HU; now right.
Qed.

Lemma zgroup_ok : forall D l, (D = 2 \/ D = 3)%Z -> zgroup D l = true -> rot_group (map (evq D) l).
Proof.
  intros D l HD H. assert (D0 : (0 <= D)%Z) by lia.
  unfold zgroup in H. repeat (apply andb_prop in H as [H ?]).
  match goal with H1 : zdistinct l = true |- _ => rename H1 into Hd end.
  match goal with H1 : forallb (fun a => existsb _ l) l = true |- _ => rename H1 into Hi end.
  match goal with H1 : forallb (fun a => forallb _ l) l = true |- _ => rename H1 into Hc end.
  match goal with H1 : existsb _ l = true |- _ => rename H1 into He end.
  rewrite forallb_forall in H, Hi, Hc.
  assert (U : forall a, In a l -> unitq (evq D a)) by (intros a Ha; apply zunit_ok; auto).
  repeat split.
  - intros a Ha; apply in_map_iff in Ha as (x & <- & Hx); auto.
  - apply existsb_exists in He as (e & He & Hs). exists (evq D e); split; [now apply in_map|].
    apply same_turn_sym. apply (zsame_same D) in Hs.
    replace (evq D zid) with qone in Hs; auto.
    unfold evq, zid, qone, ev; cbn [z0 z1 z2 z3 fst snd]; f_equal; field.
  - intros a b Ha Hb. apply in_map_iff in Ha as (x & <- & Hx), Hb as (y & <- & Hy).
    specialize (Hc x Hx). rewrite forallb_forall in Hc. specialize (Hc y Hy).
    apply existsb_exists in Hc as (c & Hc & Hs). exists (evq D c); split; [now apply in_map|].
    apply (zsame_turn D) in Hs. rewrite evq_scal, evq_mul in Hs by auto.
    destruct Hs as [Hs|Hs].
    + apply qsmul_inj in Hs; [|lra]. rewrite Hs; apply same_turn_refl.
    + rewrite qopp_smul in Hs; apply qsmul_inj in Hs; [|lra]. rewrite Hs; apply same_turn_opp.
  - intros a Ha. apply in_map_iff in Ha as (x & <- & Hx). specialize (Hi x Hx).
    apply existsb_exists in Hi as (c & Hc' & Hs). exists (evq D c); split; [now apply in_map|].
    apply (zsame_same D) in Hs. now rewrite evq_conj in Hs.
  - intros i j a b Ha Hb S. rewrite nth_error_map in Ha, Hb.
    destruct (nth_error l i) as [x|] eqn:Ei; [|discriminate]. destruct (nth_error l j) as [y|] eqn:Ej; [|discriminate].
    cbn in Ha, Hb; injection Ha as <-; injection Hb as <-. eapply zdistinct_ok; eauto.
Qed.

Lemma zsigns_ok : forall D l, (0 <= D)%Z -> zsigns D l = true ->
  forall s, In s (map (evq D) l) -> In s (misops (map (evq D) l)) /\ In (qopp s) (misops (map (evq D) l)).
Proof.
  intros D l HD H s Hs. apply in_map_iff in Hs as (x & <- & Hx). unfold zsigns in H; rewrite forallb_forall in H.
  specialize (H x Hx); apply andb_prop in H as [H1 H2].
  split.
  - apply existsb_exists in H1 as (a & Ha & H1); apply existsb_exists in H1 as (b & Hb & H1).
    apply zqeq_eq in H1; apply (f_equal (evq D)) in H1; rewrite evq_scal, evq_mul in H1 by auto.
    apply qsmul_inj in H1; [|lra]. rewrite H1. unfold misops; apply in_flat_map; exists (evq D a); split; [now apply in_map|].
    apply in_map_iff; exists (evq D b); split; auto; now apply in_map.
  - apply existsb_exists in H2 as (a & Ha & H2); apply existsb_exists in H2 as (b & Hb & H2).
    apply zqeq_eq in H2; apply (f_equal (evq D)) in H2; rewrite evq_scal, evq_mul, evq_opp in H2 by auto.
    apply qsmul_inj in H2; [|lra]. rewrite H2. unfold misops; apply in_flat_map; exists (evq D a); split; [now apply in_map|].
    apply in_map_iff; exists (evq D b); split; auto; now apply in_map.
Qed.

(** ** The tables of the code, in this representation *)
Lemma normalize_scaled : forall k u, unitq u -> 0 < k -> normalize_ (qsmul k u) = u.
Proof.
  intros k u U K. pose proof (normalize_direction (qsmul k u)) as N.
  assert (Q : qnorm (qsmul k u) = k).
  { unfold qnorm, qsmul; cbn [q0 q1 q2 q3]. unfold unitq in U.
    replace (_ + _ + _ + _) with (k * k) by (transitivity (k * k * (q0 u * q0 u + q1 u * q1 u + q2 u * q2 u + q3 u * q3 u)); [rewrite U; ring|ring]).
    apply sqrt_square; lra. }
  rewrite Q in N. apply (qsmul_inj k); [lra|]. apply N; lra.
Qed.
Lemma O4_is : forall D k z w x y v, (0 <= D)%Z -> zunit D z = true -> 0 < k ->
  w = k * ev D (z0 z) -> x = k * ev D (z1 z) -> y = k * ev D (z2 z) -> v = k * ev D (z3 z) -> O4 w x y v = evq D z.
Proof.
  intros D k z w x y v HD U K -> -> -> ->. unfold O4, mk_orientation.
  rewrite <- (normalize_scaled k (evq D z)) by (auto; now apply zunit_ok).
  f_equal. unfold qsmul, evq; cbn [q0 q1 q2 q3]; f_equal; ring.
Qed.
Lemma sqrt2_pos : 0 < sqrt 2. Proof. apply sqrt_lt_R0; lra. Qed.

Definition o : zn := (0, 0)%Z.
Definition n_ (p q : Z) : zn := (p, q).
Definition zqi (a b c d : Z) : zq := ZQ (a, 0)%Z (b, 0)%Z (c, 0)%Z (d, 0)%Z.
Definition zqr (a b c d : Z) : zq := ZQ (0, a)%Z (0, b)%Z (0, c)%Z (0, d)%Z.
Definition tetragonalZ : list zq :=
  [zqi 2 0 0 0; zqi 0 0 2 0; zqi 0 2 0 0; zqi 0 0 0 2; zqr 1 0 0 (-1); zqr 1 0 0 1; zqr 0 1 1 0; zqr 0 (-1) 1 0]%Z.
Definition hexagonalZ : list zq :=
  let i a b c d := ZQ a b c d in let b := (0, 1)%Z in let h := (1, 0)%Z in let h' := (-1, 0)%Z in
  [zqi 2 0 0 0; i h' o o b; i h o o b; i b o o h'; zqi 0 0 0 2; i b o o h;
   i o h' b o; zqi 0 2 0 0; i o h b o; i o b h o; zqi 0 0 2 0; i o b h' o]%Z.
Definition cubicZ : list zq :=
  [zqi 2 0 0 0; zqi 1 1 1 1; zqi (-1) 1 1 1; zqi 1 (-1) 1 1; zqi 1 1 (-1) 1; zqi (-1) (-1) (-1) 1;
   zqi 1 (-1) (-1) 1; zqi (-1) (-1) 1 1; zqi (-1) 1 (-1) 1; zqi 0 0 2 0; zqi 0 0 0 2; zqi 0 2 0 0;
   zqr 0 (-1) 0 1; zqr 0 1 0 1; zqr 1 0 1 0; zqr 1 0 (-1) 0; zqr 0 0 (-1) 1; zqr 1 1 0 0;
   zqr 1 (-1) 0 0; zqr 0 0 1 1; zqr 0 (-1) 1 0; zqr 1 0 0 (-1); zqr 0 1 1 0; zqr 1 0 0 1]%Z.
Ltac o4one := eapply (O4_is _ 1); [lia|reflexivity|lra|..];
  unfold ev, zqi, zqr, cs_a, cs_b, cs_h, o; cbn [z0 z1 z2 z3 fst snd]; field.
Ltac o4half := eapply (O4_is _ (sqrt 2 / 2)); [lia|reflexivity|pose proof sqrt2_pos; lra|..];
  unfold ev, zqi, zqr, cs_h; cbn [z0 z1 z2 z3 fst snd];
  (assert (sqrt 2 * sqrt 2 = 2) by (apply sqrt_sqrt; lra); nra).
Lemma tetragonal_z : tetragonal = map (evq 2) tetragonalZ.
Proof.
  unfold tetragonal, tetragonalZ; cbn [map]; repeat (apply f_equal2; [o4one|]); reflexivity.
Qed.
Lemma hexagonal_z : hexagonal = map (evq 3) hexagonalZ.
Proof.
  unfold hexagonal, hexagonalZ; cbn [map]; repeat (apply f_equal2; [o4one|]); reflexivity.
Qed.
Lemma cubic_z : cubic = map (evq 2) cubicZ.
Proof.
  unfold cubic, cubicZ; cbn [map]; repeat (apply f_equal2; [first [o4one|o4half]|]); reflexivity.
Qed.
Lemma slice_map : forall {A B} (f : A -> B) lo hi l, slice lo hi (map f l) = map f (slice lo hi l).
Proof.
  intros; unfold slice; rewrite <- firstn_map; f_equal.
  revert l; induction lo; destruct l; cbn; auto.
Qed.
(** the list of a class, as (D, integers) *)
Definition classZ (s : string) : option (Z * list zq) :=
  if String.eqb s "432" then Some (2, slice 0 24 cubicZ)%Z
  else if String.eqb s "23" then Some (2, slice 0 12 cubicZ)%Z
  else if String.eqb s "622" then Some (3, slice 0 12 hexagonalZ)%Z
  else if String.eqb s "32" then Some (3, slice 0 3 hexagonalZ ++ slice 9 12 hexagonalZ)%Z
  else if String.eqb s "6" then Some (3, slice 0 6 hexagonalZ)%Z
  else if String.eqb s "3" then Some (3, slice 0 3 hexagonalZ)%Z
  else if String.eqb s "42" then Some (2, slice 0 8 tetragonalZ)%Z
  else if String.eqb s "4" then Some (2, slice 0 1 tetragonalZ ++ slice 3 6 tetragonalZ)%Z
  else if String.eqb s "222" then Some (2, slice 0 4 tetragonalZ)%Z
  else if String.eqb s "2" then Some (2, slice 0 2 tetragonalZ)%Z
  else if String.eqb s "1" then Some (2, slice 0 1 tetragonalZ)%Z
  else None.
Lemma class_z : forall s l, symmetry_rotations s = Some l ->
  exists D z, classZ s = Some (D, z) /\ l = map (evq D) z /\ (D = 2 \/ D = 3)%Z.
Proof.
  intros s l H. unfold symmetry_rotations in H; unfold classZ.
  rewrite tetragonal_z, hexagonal_z, cubic_z in H; rewrite !slice_map, <- !map_app in H.
  repeat match type of H with context [String.eqb ?a ?b] => destruct (String.eqb a b) end;
    try discriminate; injection H as <-; eexists _, _; (split; [reflexivity|split; [reflexivity|lia]]).
Qed.
Definition classes : list string := ["432"; "23"; "622"; "32"; "6"; "3"; "42"; "4"; "222"; "2"; "1"]%string.
Lemma class_known : forall s l, symmetry_rotations s = Some l -> In s classes.
Proof.
  intros s l H. unfold symmetry_rotations in H; unfold classes; cbn [In].
  repeat match type of H with context [String.eqb ?a ?b] => destruct (String.eqb_spec a b); [subst; tauto|] end.
  discriminate.
Qed.
Lemma symmetry_group : forall s l, symmetry_rotations s = Some l -> rot_group l.
Proof.
  intros s l H. destruct (class_z s l H) as (D & z & E & -> & HD). apply zgroup_ok; auto.
  pose proof (class_known s _ H) as K. unfold classes in K; cbn [In] in K.
  repeat (destruct K as [<-|K]; [vm_compute in E; injection E as <- <-; vm_compute; reflexivity|]). destruct K.
Qed.
(** the classes for which the products contain both signs of every operator *)
Definition signed_class (s : string) : Prop := In s ["432"; "23"; "622"; "32"; "42"; "222"]%string.
Lemma symmetry_signs : forall s l, symmetry_rotations s = Some l -> signed_class s ->
  forall q, In q l -> In q (misops l) /\ In (qopp q) (misops l).
Proof.
  intros s l H K. destruct (class_z s l H) as (D & z & E & -> & HD). apply zsigns_ok; [lia|].
  unfold signed_class in K; cbn [In] in K.
  repeat (destruct K as [<-|K]; [vm_compute in E; injection E as <- <-; vm_compute; reflexivity|]). destruct K.
Qed.
Definition class_order (s : string) : nat :=
  if String.eqb s "432" then 24 else if String.eqb s "23" then 12 else if String.eqb s "622" then 12
  else if String.eqb s "32" then 6 else if String.eqb s "6" then 6 else if String.eqb s "3" then 3
  else if String.eqb s "42" then 8 else if String.eqb s "4" then 4 else if String.eqb s "222" then 4
  else if String.eqb s "2" then 2 else 1.
Lemma symmetry_order : forall s l, symmetry_rotations s = Some l -> length l = class_order s.
Proof.
  intros s l H. unfold symmetry_rotations in H; unfold class_order.
  repeat match type of H with context [String.eqb ?a ?b] => destruct (String.eqb a b) end;
    try discriminate; injection H as <-; reflexivity.
Qed.
Lemma symmetry_unknown : forall s, symmetry_rotations s = None <-> ~ In s classes.
Proof.
  intros s; split.
  - intros H K; unfold classes in K; cbn [In] in K.
    repeat (destruct K as [<-|K]; [discriminate H|]). destruct K.
  - intros K. destruct (symmetry_rotations s) eqn:E; auto. exfalso; apply K; eapply class_known; eauto.
Qed.
