(** Reference orientations, frozen twin fractions and the elastic deformation for a known reference. *)
From Verif Require Import Base Diff.
From Verif Require Import NemlMathModel NemlMathSpec RotModel RotSpec RotProofs ScModel PolyModel PolySpec PolyProofs PolyMore.
From Coq Require Import List Arith Lia Lra FunctionalExtensionality.
Import ListNotations.
Open Scope R_scope.

Lemma put_get_quat0 rp q h : store_quat (rp + 4) (put_quat rp q h) = q.
Proof.
  unfold store_quat, put_quat.
  rewrite (proj2 (Nat.ltb_ge (rp + 4) (rp + 4))), (proj2 (Nat.ltb_ge (rp + 4 + 1) (rp + 4))), (proj2 (Nat.ltb_ge (rp + 4 + 2) (rp + 4))), (proj2 (Nat.ltb_ge (rp + 4 + 3) (rp + 4))) by lia.
  rewrite !Bool.andb_false_r.
  rewrite !(proj2 (Nat.leb_le _ _)) by lia. rewrite !(proj2 (Nat.ltb_lt _ _)) by lia. cbn [andb].
  replace (rp + 4 - rp - 4)%nat with 0%nat by lia. replace (rp + 4 + 1 - rp - 4)%nat with 1%nat by lia.
  replace (rp + 4 + 2 - rp - 4)%nat with 2%nat by lia. replace (rp + 4 + 3 - rp - 4)%nat with 3%nat by lia.
  destruct q; reflexivity.
Qed.
Lemma set_batch_reference nh rp n qs hist hist' i : (rp + 8 <= nh)%nat -> set_passive_batch nh rp n qs hist = Some hist' -> (i < n)%nat ->
  store_quat (rp + 4) (part nh i hist') = store_quat rp (part nh i hist') /\ store_quat (rp + 4) (part nh i hist') = oinv (nth i qs qdefault).
Proof.
  intros Hr H Hi. unfold set_passive_batch in H. destruct (Nat.eqb_spec (length qs) n) as [El|]; [|discriminate].
  set (a := fold_left _ _ hist) in H. assert (hist' = a) as -> by congruence. clear H.
  pose proof (fold_write nh n (fun i h => put_quat rp (oinv (nth i qs qdefault)) h) 0 hist) as (H1 & _ & _). cbv zeta beta in H1. fold a in H1.
  assert (G : store_quat rp (part nh i a) = oinv (nth i qs qdefault)).
  { rewrite <- (put_get_quat rp (oinv (nth i qs qdefault)) (part nh i hist)). unfold store_quat, part.
    rewrite !(proj2 (Nat.ltb_lt _ _)) by lia. rewrite !H1 by lia. reflexivity. }
  assert (G0 : store_quat (rp + 4) (part nh i a) = oinv (nth i qs qdefault)).
  { rewrite <- (put_get_quat0 rp (oinv (nth i qs qdefault)) (part nh i hist)). unfold store_quat, part.
    rewrite !(proj2 (Nat.ltb_lt _ _)) by lia. rewrite !H1 by lia. reflexivity. }
  rewrite G, G0. auto.
Qed.
Lemma init_reference nh rp n h0 qs i : (rp + 8 <= nh)%nat -> (i < n)%nat ->
  store_quat (rp + 4) (part nh i (poly_init nh rp n h0 qs)) = nth i qs qdefault /\ store_quat rp (part nh i (poly_init nh rp n h0 qs)) = nth i qs qdefault.
Proof.
  intros Hr Hi.
  assert (P : forall j, (j < nh)%nat -> poly_init nh rp n h0 qs (i * nh + j)%nat = put_quat rp (nth i qs qdefault) h0 j).
  { intros j Hj. unfold poly_init. rewrite (proj2 (Nat.ltb_lt _ _)) by nia.
    replace ((i * nh + j) / nh)%nat with i by (rewrite Nat.div_add_l by lia; rewrite Nat.div_small by lia; lia).
    replace ((i * nh + j) mod nh)%nat with j by (rewrite Nat.add_comm, Nat.mod_add by lia; rewrite Nat.mod_small by lia; lia). reflexivity. }
  split; [transitivity (store_quat (rp + 4) (put_quat rp (nth i qs qdefault) h0)); [|apply put_get_quat0] | transitivity (store_quat rp (put_quat rp (nth i qs qdefault) h0)); [|apply put_get_quat]];
    unfold store_quat, part; rewrite !(proj2 (Nat.ltb_lt _ _)) by lia; rewrite !P by lia; reflexivity.
Qed.
Lemma copy_value ss : forall k prev f, (forall j, twin_at ss j -> ptr_copy k ss prev f (k + j)%nat = prev (k + j)%nat) /\
  (forall j, (j < k)%nat -> ptr_copy k ss prev f j = f j) /\ (forall j, ~ twin_at ss j -> ptr_copy k ss prev f (k + j)%nat = f (k + j)%nat).
Proof.
  induction ss as [|s ss IH]; intros k prev f; cbn [ptr_copy].
  - split; [intros j (s & E & _); destruct j; discriminate|]. split; reflexivity.
  - destruct (IH (S k) prev (if p_twin s then upd f k (prev k) else f)) as (H1 & H2 & H3). split; [|split].
    + intros [|j] Hj.
      * rewrite Nat.add_0_r, H2 by lia. destruct Hj as (s' & E & T). cbn in E. injection E as <-. rewrite T. unfold upd. rewrite Nat.eqb_refl. reflexivity.
      * replace (k + S j)%nat with (S k + j)%nat by lia. apply H1. exact Hj.
    + intros j Hj. rewrite H2 by lia. destruct (p_twin s); [|reflexivity]. unfold upd. rewrite (proj2 (Nat.eqb_neq j k)) by lia. reflexivity.
    + intros [|j] Hj.
      * rewrite Nat.add_0_r, H2 by lia. destruct (p_twin s) eqn:T; [|reflexivity]. exfalso. apply Hj. exists s. split; [reflexivity|exact T].
      * replace (k + S j)%nat with (S k + j)%nat by lia. rewrite H3 by exact Hj. destruct (p_twin s); [|reflexivity]. unfold upd. rewrite (proj2 (Nat.eqb_neq _ k)) by lia. reflexivity.
Qed.
Lemma ptr_frozen thr ss st prev : 1 / 2 <= p_twinned prev -> let r := ptr_act thr ss st prev in
  (forall j, twin_at ss j -> p_frac r j = p_frac prev j) /\ (forall j, ~ twin_at ss j -> p_frac r j = p_frac st j) /\
  p_twinned r = p_twinned prev /\ p_rot r = p_rot st /\ p_rot0 r = p_rot0 st /\ p_slip r = p_slip st.
Proof.
  intros H. cbv zeta. unfold ptr_act. destruct (Rlt_dec (p_twinned prev) (1 / 2)) as [L|_]; [lra|]. cbn [p_frac p_twinned p_rot p_rot0 p_slip].
  destruct (copy_value ss 0 (p_frac prev) (p_frac st)) as (A & _ & C). split; [exact A|]. split; [exact C|]. auto.
Qed.
Lemma relative_rotation Q Q0 : unitq Q -> unitq Q0 -> forall i, to_matrix (qmul Q (oinv Q0)) i = mul_2 (to_matrix Q) (tr_2 (to_matrix Q0)) i.
Proof.
  intros H H0 i. destruct Q as [a b c d], Q0 as [e f g h]. unfold unitq, oinv, qconj, qmul, to_matrix, mul_2, tr_2 in *. cbn [q0 q1 q2 q3] in *.
  assert (a * a = 1 - b * b - c * c - d * d) as A by lra. assert (e * e = 1 - f * f - g * g - h * h) as E by lra.
  do 9 (destruct i as [|i]; [cbn [Nat.mul Nat.add]; ring [A E]|]). cbn [Nat.mul Nat.add]. ring [A E].
Qed.
Lemma Fe_given inv9 c T s Q Q0 : unitq Q -> unitq Q0 ->
  sc_Fe inv9 c T s Q Q0 = inv9 (mul_2 (usym (fun i => (if Nat.ltb i 3 then 1 else 0) + sc_estrain c T Q s i)) (mul_2 (to_matrix Q) (tr_2 (to_matrix Q0)))).
Proof. intros H H0. unfold sc_Fe. cbv zeta. do 2 f_equal. apply functional_extensionality. intros i. now apply relative_rotation. Qed.
