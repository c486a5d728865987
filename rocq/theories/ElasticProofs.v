(** Proofs about the elastic models. *)
From Coq Require Import String List Nsatz.
From Verif Require Import Base.
From Verif Require Import Diff.
From Verif Require Import NemlMathModel.
From Verif Require Import NemlMathSpec.
From Verif Require Import NemlMathProofs.
From Verif Require Import ElasticModel.
From Verif Require Import ElasticSpec.
Import ListNotations.

Ltac tabe := cbv [C_calc S_calc cubic_fill trans_fill t2 t4 flat ddot42 rsum Nat.add Nat.mul Nat.eqb delta mm mv dot dev_vec I1 Nat.ltb Nat.leb
  mandel2full usym rotz].

(** ** Moduli *)
Lemma GK_material : forall m t1 t2 m1 m2, admissible m -> t1 <> t2 -> modulus m t1 m1 -> modulus m t2 m2 ->
  get_GK_vals t1 t2 m1 m2 = Some (mG m, mK m).
Proof.
  intros [E nu G K] t1 t2 m1 m2 (HG & HK & H1 & H2) Hne M1 M2. simpl in *.
  assert (N1 : -1 < nu). { apply Rnot_le_lt. intros Hn. assert (3 * K * (1 - 2 * nu) > 0) by (apply Rmult_gt_0_compat; lra).
    assert (2 * G * (1 + nu) <= 0) by (replace (2 * G * (1 + nu)) with (- (2 * G * - (1 + nu))) by ring; assert (0 <= 2 * G * - (1 + nu)) by (apply Rmult_le_pos; lra); lra). lra. }
  assert (N2 : nu < 1 / 2). { apply Rnot_le_lt. intros Hn. assert (2 * G * (1 + nu) > 0) by (apply Rmult_gt_0_compat; lra).
    assert (3 * K * (1 - 2 * nu) <= 0) by (replace (3 * K * (1 - 2 * nu)) with (- (3 * K * - (1 - 2 * nu))) by ring; assert (0 <= 3 * K * - (1 - 2 * nu)) by (apply Rmult_le_pos; lra); lra). lra. }
  assert (KG : 3 * K * (1 - 2 * nu) = 2 * G * (1 + nu)) by lra.
  assert (A1 : 3 * G - E = G * (1 - 2 * nu)) by (rewrite H1; ring).
  assert (A2 : 9 * K - E = 6 * K * (1 + nu)) by (rewrite H2; ring).
  assert (P1 : 0 < G * (1 - 2 * nu)) by (apply Rmult_lt_0_compat; lra).
  assert (P2 : 0 < 6 * K * (1 + nu)) by (apply Rmult_lt_0_compat; lra).
  assert (EK : K = 2 * G * (1 + nu) / (3 * (1 - 2 * nu))) by (field_simplify_eq; lra).
  assert (EG : G = 3 * K * (1 - 2 * nu) / (2 * (1 + nu))) by (field_simplify_eq; lra).
  unfold modulus in *; simpl in *.
  destruct M1 as [[-> ->] | [[-> ->] | [[-> ->] | [-> ->]]]]; destruct M2 as [[-> ->] | [[-> ->] | [[-> ->] | [-> ->]]]];
    try (exfalso; apply Hne; reflexivity); unfold get_GK_vals; simpl; f_equal; f_equal; try reflexivity;
    first [ rewrite H1; field; lra | rewrite H2; field; lra | rewrite A1, H1, EK; field; lra | rewrite A2, H2, EG; field; lra
          | rewrite A1, H1; rewrite EK at 1; field; lra | symmetry; exact EK | symmetry; exact EG | idtac ].
  all: try (rewrite A1, H1; transitivity (2 * G * (1 + nu) / (3 * (1 - 2 * nu))); [field; lra | symmetry; exact EK]).
  all: try (rewrite A2, H2; transitivity (3 * K * (1 - 2 * nu) / (2 * (1 + nu))); [field; lra | symmetry; exact EG]).
Qed.

Definition mat_of (G K : R) : material :=
  {| mE := 9 * K * G / (3 * K + G); mNu := (3 * K - 2 * G) / (2 * (3 * K + G)); mG := G; mK := K |}.
Lemma mat_of_admissible : forall G K, 0 < G -> 0 < K -> admissible (mat_of G K).
Proof.
  intros G K HG HK. unfold admissible; simpl. split; [exact HG|]. split; [exact HK|]. split; field; lra.
Qed.
Lemma inv_pos : forall a b, 0 < a / b -> b <> 0.
Proof. intros a b H E. subst b. unfold Rdiv in H. rewrite Rinv_0, Rmult_0_r in H. lra. Qed.

Lemma to_E : forall m G K, 0 < G -> 0 < K -> m * (3 * K + G) = 9 * K * G -> m = 9 * K * G / (3 * K + G).
Proof. intros m G K HG HK H. rewrite <- H. field. lra. Qed.
Lemma to_nu : forall m G K, 0 < G -> 0 < K -> m * (2 * (3 * K + G)) = 3 * K - 2 * G -> m = (3 * K - 2 * G) / (2 * (3 * K + G)).
Proof. intros m G K HG HK H. rewrite <- H. field. lra. Qed.
Lemma undiv : forall a b c, b <> 0 -> a / b = c -> a = c * b.
Proof. intros a b c Hb <-. field. exact Hb. Qed.
Lemma type_cases : forall t1 t2 m1 m2 r, get_GK_vals t1 t2 m1 m2 = Some r ->
  In t1 valid_types /\ In t2 valid_types /\ t1 <> t2.
Proof.
  intros t1 t2 m1 m2 r H. unfold get_GK_vals in H. cbv zeta in H.
  repeat match type of H with
  | (if andb (String.eqb ?a ?b) (String.eqb ?c ?d) then _ else _) = _ =>
      let e := fresh in destruct (andb (String.eqb a b) (String.eqb c d)) eqn:e;
      [apply andb_prop in e; destruct e as [e1 e2]; apply String.eqb_eq in e1; apply String.eqb_eq in e2; clear H; subst;
       split; [simpl; tauto | split; [simpl; tauto | discriminate]] |]
  end.
  discriminate.
Qed.
Lemma GK_reproduces : forall t1 t2 m1 m2 G K, get_GK_vals t1 t2 m1 m2 = Some (G, K) -> 0 < G -> 0 < K ->
  modulus (mat_of G K) t1 m1 /\ modulus (mat_of G K) t2 m2.
Proof.
  intros t1 t2 m1 m2 G K H HG HK. destruct (type_cases _ _ _ _ _ H) as (I1' & I2' & Ne).
  simpl in I1', I2'.
  destruct I1' as [<- | [<- | [<- | [<- | []]]]]; destruct I2' as [<- | [<- | [<- | [<- | []]]]];
   try (exfalso; apply Ne; reflexivity); unfold get_GK_vals in H; simpl in H; injection H; intros EK EG; unfold modulus; simpl; clear H Ne.
  all: split; [first [left; split; [reflexivity|] | right; left; split; [reflexivity|] | right; right; left; split; [reflexivity|] | right; right; right; split; [reflexivity|]]
              |first [left; split; [reflexivity|] | right; left; split; [reflexivity|] | right; right; left; split; [reflexivity|] | right; right; right; split; [reflexivity|]]]; try assumption.
  all: try (assert (NG := HG); rewrite <- EG in NG; apply inv_pos in NG; apply (undiv _ _ _ NG) in EG);
       try (assert (NK := HK); rewrite <- EK in NK; apply inv_pos in NK; apply (undiv _ _ _ NK) in EK).
  all: first [apply to_E; [assumption | assumption | subst; first [lra | nsatz]]
             | apply to_nu; [assumption | assumption | subst; first [lra | nsatz]] ].
Qed.

(** ** Stiffness and compliance *)
Lemma CS_inverse : forall G K, G <> 0 -> K <> 0 -> inverse6 (S_calc G K) (C_calc G K).
Proof.
  intros G K HG HK i j Hi Hj.
  assert (D1 : 2 * G * G + 3 * G * (K - 2 / 3 * G) = 3 * (G * K)) by field.
  assert (D2 : 4 * G * G + 6 * G * (K - 2 / 3 * G) = 6 * (G * K)) by field.
  cases6 i Hi; cases6 j Hj; tabe; rewrite ?D1, ?D2; (split; field; try (split; assumption); assumption).
Qed.
Lemma C_sym : forall G K i j, (i < 6)%nat -> (j < 6)%nat -> flat 6 (C_calc G K) i j = flat 6 (C_calc G K) j i /\ flat 6 (S_calc G K) i j = flat 6 (S_calc G K) j i.
Proof. intros G K i j Hi Hj. cases6 i Hi; cases6 j Hj; split; reflexivity. Qed.
Lemma C_acts : forall G K e i j, (i < 3)%nat -> (j < 3)%nat ->
  t2 (usym (mv 6 (flat 6 (C_calc G K)) e)) i j = K * tr2 (usym e) * delta i j + 2 * G * (t2 (usym e) i j - tr2 (usym e) / 3 * delta i j).
Proof. intros G K e i j Hi Hj. unfold tr2. cases3 i Hi; cases3 j Hj; tabe; field; apply Rgt_not_eq, r2_pos. Qed.

Lemma iso_delta : forall G K i j k l, (i < 3)%nat -> (j < 3)%nat -> (k < 3)%nat -> (l < 3)%nat ->
  t4 (mandel2full (C_calc G K)) i j k l = (K - 2 / 3 * G) * (delta i j * delta k l) + G * (delta i k * delta j l + delta i l * delta j k).
Proof.
  intros G K i j k l Hi Hj Hk Hl. cases3 i Hi; cases3 j Hj; cases3 k Hk; cases3 l Hl; tabe; rewrite ?div_r2; field [r2_sqr].
Qed.
Lemma cubic_delta : forall C1 C2 C3 i j k l, (i < 3)%nat -> (j < 3)%nat -> (k < 3)%nat -> (l < 3)%nat ->
  t4 (mandel2full (cubic_fill C1 C2 C3)) i j k l = C2 * (delta i j * delta k l) + C3 / 2 * (delta i k * delta j l + delta i l * delta j k)
    + (C1 - C2 - C3) * (delta i j * delta j k * delta k l).
Proof.
  intros C1 C2 C3 i j k l Hi Hj Hk Hl. cases3 i Hi; cases3 j Hj; cases3 k Hk; cases3 l Hl; tabe; rewrite ?div_r2; field [r2_sqr].
Qed.

Lemma rot4_ext : forall Q A B, (forall i j k l, (i < 3)%nat -> (j < 3)%nat -> (k < 3)%nat -> (l < 3)%nat -> t4 A i j k l = B i j k l) ->
  forall i j k l, rot4 Q A i j k l = rsum 3 (fun a => rsum 3 (fun b => rsum 3 (fun c => rsum 3 (fun d => Q i a * Q j b * Q k c * Q l d * B a b c d)))).
Proof.
  intros Q A B H i j k l. unfold rot4. repeat (apply rsum_ext; intros ? ?). rewrite H by assumption. reflexivity.
Qed.
Lemma iso_invariant : forall G K Q, orthogonal Q -> invariant Q (C_calc G K).
Proof.
  intros G K Q HQ i j k l Hi Hj Hk Hl. rewrite iso_delta by assumption.
  rewrite (rot4_ext Q _ _ (iso_delta G K)).
  transitivity ((K - 2 / 3 * G) * (rsum 3 (fun a => Q i a * Q j a) * rsum 3 (fun a => Q k a * Q l a)) +
     G * (rsum 3 (fun a => Q i a * Q k a) * rsum 3 (fun a => Q j a * Q l a) + rsum 3 (fun a => Q i a * Q l a) * rsum 3 (fun a => Q j a * Q k a))).
  - cbv [rsum delta Nat.eqb]. ring.
  - rewrite !HQ by assumption. reflexivity.
Qed.
Lemma rsum_pick : forall n (f : nat -> R) p s, (p < n)%nat -> rsum n (fun a => (if Nat.eqb a p then s else 0) * f a) = s * f p.
Proof.
  intros n f p s Hp. transitivity (rsum n (fun a => delta p a * (s * f a))).
  - apply rsum_ext. intros a Ha. unfold delta. rewrite (Nat.eqb_sym p a). destruct (Nat.eqb a p); ring.
  - rewrite rsum_delta by exact Hp. reflexivity.
Qed.
Lemma cubic_invariant : forall C1 C2 C3 Q, signed_permutation Q -> invariant Q (cubic_fill C1 C2 C3).
Proof.
  intros C1 C2 C3 Q (p & s & Hp & Hinj & HQ) i j k l Hi Hj Hk Hl. rewrite cubic_delta by assumption.
  rewrite (rot4_ext Q _ _ (cubic_delta C1 C2 C3)).
  set (B := fun i j k l => C2 * (delta i j * delta k l) + C3 / 2 * (delta i k * delta j l + delta i l * delta j k)
    + (C1 - C2 - C3) * (delta i j * delta j k * delta k l)).
  change (rsum 3 (fun a => rsum 3 (fun b => rsum 3 (fun c => rsum 3 (fun d => Q i a * Q j b * Q k c * Q l d * B a b c d)))) = B i j k l).
  destruct (Hp i Hi) as [Pi Si]. destruct (Hp j Hj) as [Pj Sj]. destruct (Hp k Hk) as [Pk Sk]. destruct (Hp l Hl) as [Pl Sl].
  transitivity (s i * (s j * (s k * (s l * B (p i) (p j) (p k) (p l))))).
  - rewrite <- (rsum_pick 3 (fun a => s j * (s k * (s l * B a (p j) (p k) (p l)))) (p i) (s i) Pi). apply rsum_ext. intros a Ha.
    rewrite <- (rsum_pick 3 (fun b => s k * (s l * B a b (p k) (p l))) (p j) (s j) Pj), <- rsum_scal. apply rsum_ext. intros b Hb.
    rewrite <- (rsum_pick 3 (fun c => s l * B a b c (p l)) (p k) (s k) Pk), <- !rsum_scal. apply rsum_ext. intros c Hc.
    rewrite <- (rsum_pick 3 (fun d => B a b c d) (p l) (s l) Pl), <- !rsum_scal. apply rsum_ext. intros d Hd.
    rewrite !HQ by assumption. ring.
  - assert (Dl : forall x y, (x < 3)%nat -> (y < 3)%nat -> delta (p x) (p y) = delta x y).
    { intros x y Hx Hy. unfold delta. destruct (Nat.eqb_spec (p x) (p y)) as [E|E], (Nat.eqb_spec x y) as [F|F]; try reflexivity.
      - exfalso; apply F; apply Hinj; assumption.
      - exfalso; apply E; subst; reflexivity. }
    unfold B. rewrite !Dl by assumption. unfold delta.
    destruct (Nat.eqb_spec i j) as [E1|E1], (Nat.eqb_spec i k) as [E2|E2], (Nat.eqb_spec i l) as [E3|E3], (Nat.eqb_spec j k) as [E4|E4],
       (Nat.eqb_spec j l) as [E5|E5], (Nat.eqb_spec k l) as [E6|E6]; subst; try congruence;
    destruct Si as [Si|Si], Sj as [Sj|Sj], Sk as [Sk|Sk], Sl as [Sl|Sl]; try (exfalso; lra); rewrite ?Si, ?Sj, ?Sk, ?Sl; field.
Qed.

Lemma quarter_invariant : forall C11 C33 C12 C13 C44, invariant (rotz 0 1) (trans_fill C11 C33 C12 C13 C44).
Proof.
  intros C11 C33 C12 C13 C44 i j k l Hi Hj Hk Hl. unfold rot4.
  cases3 i Hi; cases3 j Hj; cases3 k Hk; cases3 l Hl; tabe; rewrite ?div_r2; field [r2_sqr].
Qed.
Lemma trans_not_invariant : forall C11 C33 C12 C13 C44, C11 <> C12 -> ~ invariant (rotz (r2 / 2) (r2 / 2)) (trans_fill C11 C33 C12 C13 C44).
Proof.
  intros C11 C33 C12 C13 C44 Hne H. specialize (H 0 0 0 0 ltac:(lia) ltac:(lia) ltac:(lia) ltac:(lia))%nat.
  unfold rot4 in H. revert H. tabe. intros H. apply Hne.
  assert (E : (3 * C11 + C12) / 4 = C11). { rewrite <- H at 2. rewrite ?div_r2. field [r2_sqr]. }
  lra.
Qed.
Lemma trans_degenerate_invariant : forall C11 C33 C13 C44 c s, c * c + s * s = 1 -> invariant (rotz c s) (trans_fill C11 C33 C11 C13 C44).
Proof.
  intros C11 C33 C13 C44 c s Hcs i j k l Hi Hj Hk Hl. unfold rot4.
  assert (E : c * c = 1 - s * s) by lra.
  cases3 i Hi; cases3 j Hj; cases3 k Hk; cases3 l Hl; tabe; rewrite ?div_r2; field [r2_sqr E].
Qed.

(** ** Elastic energy *)
Lemma iso_energy : forall G K e, dot 6 e (mv 6 (flat 6 (C_calc G K)) e) = K * (I1 e * I1 e) + 2 * G * dot 6 (dev_vec e) (dev_vec e).
Proof. intros. tabe. field. Qed.
Lemma cubic_energy : forall C1 C2 C3 e, dot 6 e (mv 6 (flat 6 (cubic_fill C1 C2 C3)) e) =
  (C1 + 2 * C2) / 3 * (I1 e * I1 e)
  + (C1 - C2) / 3 * ((e 0%nat - e 1%nat) * (e 0%nat - e 1%nat) + (e 1%nat - e 2%nat) * (e 1%nat - e 2%nat) + (e 0%nat - e 2%nat) * (e 0%nat - e 2%nat))
  + C3 * (e 3%nat * e 3%nat + e 4%nat * e 4%nat + e 5%nat * e 5%nat).
Proof. intros. tabe. field. Qed.
Lemma sq_nonneg : forall x, 0 <= x * x. Proof. intros. apply Rle_0_sqr. Qed.
Lemma sq_zero : forall x, x * x = 0 -> x = 0. Proof. intros x H. destruct (Rmult_integral _ _ H); assumption. Qed.
Lemma cubic_posdef : forall C1 C2 C3 e, 0 < C1 + 2 * C2 -> 0 < C1 - C2 -> 0 < C3 ->
  (exists i, (i < 6)%nat /\ e i <> 0) -> 0 < dot 6 e (mv 6 (flat 6 (cubic_fill C1 C2 C3)) e).
Proof.
  intros C1 C2 C3 e H1 H2 H3 (i & Hi & Ne). rewrite cubic_energy. unfold I1.
  set (a := e 0%nat + e 1%nat + e 2%nat). set (b := e 0%nat - e 1%nat). set (c := e 1%nat - e 2%nat). set (d := e 0%nat - e 2%nat).
  set (A := a * a). set (B := b * b + c * c + d * d). set (Cc := e 3%nat * e 3%nat + e 4%nat * e 4%nat + e 5%nat * e 5%nat).
  assert (PA : 0 <= A) by apply sq_nonneg.
  pose proof (sq_nonneg b). pose proof (sq_nonneg c). pose proof (sq_nonneg d). pose proof (sq_nonneg (e 3%nat)). pose proof (sq_nonneg (e 4%nat)). pose proof (sq_nonneg (e 5%nat)).
  assert (PB : 0 <= B) by (unfold B; lra). assert (PC : 0 <= Cc) by (unfold Cc; lra).
  assert (QA : 0 <= (C1 + 2 * C2) / 3 * A) by (apply Rmult_le_pos; lra).
  assert (QB : 0 <= (C1 - C2) / 3 * B) by (apply Rmult_le_pos; lra).
  assert (QC : 0 <= C3 * Cc) by (apply Rmult_le_pos; lra).
  destruct (Req_dec A 0) as [ZA|NA]; [destruct (Req_dec B 0) as [ZB|NB]; [destruct (Req_dec Cc 0) as [ZC|NC]|]|].
  - exfalso. apply Ne. unfold A in ZA. apply sq_zero in ZA. unfold B in ZB. unfold Cc in ZC.
    assert (Zb : b = 0) by (apply sq_zero; lra). assert (Zc : c = 0) by (apply sq_zero; lra).
    assert (Z3 : e 3%nat = 0) by (apply sq_zero; lra). assert (Z4 : e 4%nat = 0) by (apply sq_zero; lra). assert (Z5 : e 5%nat = 0) by (apply sq_zero; lra).
    unfold a, b, c in *. cases6 i Hi; lra.
  - assert (0 < C3 * Cc) by (apply Rmult_lt_0_compat; lra). lra.
  - assert (0 < (C1 - C2) / 3 * B) by (apply Rmult_lt_0_compat; lra). lra.
  - assert (0 < (C1 + 2 * C2) / 3 * A) by (apply Rmult_lt_0_compat; lra). lra.
Qed.
Lemma iso_is_cubic : forall G K, C_calc G K = cubic_fill (2 * G + (K - 2 / 3 * G)) (K - 2 / 3 * G) (2 * G).
Proof. reflexivity. Qed.
Lemma iso_posdef : forall G K e, 0 < G -> 0 < K -> (exists i, (i < 6)%nat /\ e i <> 0) -> 0 < dot 6 e (mv 6 (flat 6 (C_calc G K)) e).
Proof. intros G K e HG HK He. rewrite iso_is_cubic. apply cubic_posdef; try lra. exact He. Qed.
Lemma cubic_inverse_exists : forall C1 C2 C3, C1 - C2 <> 0 -> C1 + 2 * C2 <> 0 -> C3 <> 0 -> exists S, inverse6 S (cubic_fill C1 C2 C3).
Proof.
  intros C1 C2 C3 H1 H2 H3.
  exists (cubic_fill ((C1 + C2) / ((C1 - C2) * (C1 + 2 * C2))) (- C2 / ((C1 - C2) * (C1 + 2 * C2))) (/ C3)).
  intros i j Hi Hj. cases6 i Hi; cases6 j Hj; tabe; (split; field; repeat split; assumption).
Qed.
(** the inverse of a stiffness is unique and symmetric *)
Lemma inverse_unique : forall S S' C, inverse6 S C -> inverse6 S' C -> forall i j, (i < 6)%nat -> (j < 6)%nat -> flat 6 S i j = flat 6 S' i j.
Proof.
  intros S S' C H H' i j Hi Hj. unfold flat.
  transitivity (rsum 6 (fun k => S (6 * i + k)%nat * rsum 6 (fun l => C (6 * k + l)%nat * S' (6 * l + j)%nat))).
  - transitivity (rsum 6 (fun k => delta j k * S (6 * i + k)%nat)); [symmetry; apply (rsum_delta 6 j (fun k => S (6 * i + k)%nat) Hj)|].
    apply rsum_ext. intros k Hk. destruct (H' k j Hk Hj) as [_ E]. rewrite E. unfold delta. rewrite Nat.eqb_sym. ring.
  - transitivity (rsum 6 (fun l => delta i l * S' (6 * l + j)%nat)); [|apply (rsum_delta 6 i (fun l => S' (6 * l + j)%nat) Hi)].
    transitivity (rsum 6 (fun k => rsum 6 (fun l => S (6 * i + k)%nat * C (6 * k + l)%nat * S' (6 * l + j)%nat))).
    + apply rsum_ext. intros k Hk. rewrite <- rsum_scal. apply rsum_ext. intros; ring.
    + rewrite rsum_swap. apply rsum_ext. intros l Hl. destruct (H i l Hi Hl) as [E _]. rewrite <- E, <- rsum_scal_r. reflexivity.
Qed.
