(** Proofs for blocks and the C interface. *)
From Verif Require Import Base.
From Verif Require Import Diff.
From Verif Require Import NemlMathModel.
From Verif Require Import NemlMathSpec.
From Verif Require Import PolyModel.
From Verif Require Import PolyProofs.
From Verif Require Import BlockModel.
From Verif Require Import BlockSpec.
From Coq Require Import List Arith ZArith Lia Lra Permutation FunctionalExtensionality.
Import ListNotations.
Open Scope R_scope.

(** *** The tables *)
Definition ent_eqb (a b : ent) : bool := match a, b with E0, E0 | E1, E1 | Es, Es | Eh, Eh => true | _, _ => false end.
Lemma ent_eqb_eq a b : ent_eqb a b = true -> a = b.
Proof. destruct a, b; cbn; intros H; (reflexivity || discriminate). Qed.
Definition ent_mul (a b : ent) : ent := match a, b with E1, x => x | x, E1 => x | Es, Es => Eh | _, _ => E0 end.
Lemma s22_sq : s22 * s22 = 1 / 2.
Proof. unfold s22. assert (S : sqrt 2 * sqrt 2 = 2) by (apply sqrt_sqrt; lra). assert (N : sqrt 2 <> 0) by (intros C; rewrite C in S; lra). apply Rmult_eq_reg_r with (sqrt 2 * sqrt 2); [|rewrite S; lra]. field_simplify; [|exact N]. replace (sqrt 2 ^ 2) with 2 by (rewrite <- S at 1; ring). lra. Qed.
(** the products that occur *)
Definition simple (a b : ent) : bool := match a, b with Eh, Es | Es, Eh | Eh, Eh => false | _, _ => true end.
Lemma ent_mul_r a b : simple a b = true -> ent_r (ent_mul a b) = ent_r a * ent_r b.
Proof. destruct a, b; cbn; intros H; try discriminate; try ring; rewrite s22_sq; reflexivity. Qed.
Definition Mt (a p : nat) : ent := nth (a * 9 + p) m2t_array E0.
Definition check4 : bool := forallb (fun a => forallb (fun b => forallb (fun p => forallb (fun q =>
  andb (simple (Mt a p) (Mt b q)) (ent_eqb (nth ((a * 6 + b) * 81 + (p * 9 + q)) m42t4_array E0) (ent_mul (Mt a p) (Mt b q)))) (seq 0 9)) (seq 0 9)) (seq 0 6)) (seq 0 6).
Lemma check4_true : check4 = true.
Proof. vm_compute. reflexivity. Qed.
Lemma forallb_seq n f : forallb f (seq 0 n) = true -> forall i, (i < n)%nat -> f i = true.
Proof. intros H i Hi. rewrite forallb_forall in H. apply H. apply in_seq. lia. Qed.
Lemma table4 a b p q : (a < 6)%nat -> (b < 6)%nat -> (p < 9)%nat -> (q < 9)%nat ->
  tabv m42t4_array ((a * 6 + b) * 81 + (p * 9 + q))%nat = ent_r (Mt a p) * ent_r (Mt b q).
Proof.
  intros Ha Hb Hp Hq. pose proof check4_true as C. unfold check4 in C.
  pose proof (forallb_seq _ _ C a Ha) as C1. cbv beta in C1. pose proof (forallb_seq _ _ C1 b Hb) as C2. cbv beta in C2.
  pose proof (forallb_seq _ _ C2 p Hp) as C3. cbv beta in C3. pose proof (forallb_seq _ _ C3 q Hq) as C4. cbv beta in C4.
  apply Bool.andb_true_iff in C4. destruct C4 as [C4 C5]. apply ent_eqb_eq in C5. unfold tabv. rewrite C5. apply ent_mul_r. exact C4.
Qed.
Definition check2 : bool := forallb (fun a => forallb (fun p => ent_eqb (nth (p * 6 + a) t2m_array E0) (Mt a p)) (seq 0 9)) (seq 0 6).
Lemma table2 a p : (a < 6)%nat -> (p < 9)%nat -> tabv t2m_array (p * 6 + a)%nat = ent_r (Mt a p).
Proof.
  intros Ha Hp. assert (C : check2 = true) by (vm_compute; reflexivity). unfold check2 in C.
  pose proof (forallb_seq _ _ C a Ha) as C1. cbv beta in C1. pose proof (forallb_seq _ _ C1 p Hp) as C2. cbv beta in C2. apply ent_eqb_eq in C2. unfold tabv. rewrite C2. reflexivity.
Qed.

(** *** Multiplication *)
Lemma mat_mat_at m n k A B C i j : (i < m)%nat -> (j < n)%nat -> mat_mat m n k A B C (i * n + j)%nat = rsum k (fun l => A (i * k + l)%nat * B (l * n + j)%nat).
Proof.
  intros Hi Hj. unfold mat_mat. rewrite (proj2 (Nat.ltb_lt _ _)) by nia.
  replace ((i * n + j) / n)%nat with i by (apply (Nat.div_unique (i * n + j) n i j); lia).
  replace ((i * n + j) mod n)%nat with j by (apply (Nat.mod_unique (i * n + j) n i j); lia). reflexivity.
Qed.
Lemma mat_mat_beyond m n k A B C p : (m * n <= p)%nat -> mat_mat m n k A B C p = C p.
Proof. intros H. unfold mat_mat. rewrite (proj2 (Nat.ltb_ge _ _)) by exact H. reflexivity. Qed.
Lemma sum_mandel (T : nat -> nat -> R) k : (k < 6)%nat -> rsum 9 (fun p => T (p / 3)%nat (p mod 3)%nat * ent_r (Mt k p)) = mandel T k.
Proof. intros Hk. do 6 (destruct k as [|k]; [cbn [rsum Mt m2t_array nth Nat.mul Nat.add ent_r mandel]; unfold s22, Rdiv; cbn; ring|]). lia. Qed.
Lemma sum_tensor (v : vec) i j : (i < 3)%nat -> (j < 3)%nat -> rsum 6 (fun a => v a * ent_r (Mt a (i * 3 + j)%nat)) = tensor v i j.
Proof. intros Hi Hj. do 3 (destruct i as [|i]; [do 3 (destruct j as [|j]; [cbn; unfold s22, Rdiv; ring|]); lia|]). lia. Qed.
Lemma t2m_value n a loc i k : (i < n)%nat -> (k < 6)%nat -> t2m n a loc (i * 6 + k)%nat = mandel (ten a i) k.
Proof.
  intros Hi Hk. unfold t2m. rewrite (mat_mat_at n 6 9 _ _ _ i k Hi Hk). rewrite <- (sum_mandel (ten a i) k Hk). apply rsum_ext. intros p Hp.
  rewrite (table2 k p Hk Hp). unfold ten. f_equal. f_equal. pose proof (Nat.div_mod_eq p 3). lia.
Qed.
Lemma m2t_value n v loc i p q : (i < n)%nat -> (p < 3)%nat -> (q < 3)%nat -> ten (m2t n v loc) i p q = tensor (part 6 i v) p q.
Proof.
  intros Hi Hp Hq. unfold ten, m2t. rewrite (mat_mat_at n 9 6 _ _ _ i (p * 3 + q)%nat Hi ltac:(lia)). rewrite <- (sum_tensor (part 6 i v) p q Hp Hq). apply rsum_ext. intros a Ha.
  unfold part. rewrite (proj2 (Nat.ltb_lt a 6)) by exact Ha. reflexivity.
Qed.
Lemma rsum_36 f : rsum 36 f = rsum 6 (fun a => rsum 6 (fun b => f (a * 6 + b)%nat)).
Proof. cbn [rsum Nat.mul Nat.add]. ring. Qed.
Lemma m42t4_value n v loc i p q r s : (i < n)%nat -> (p < 3)%nat -> (q < 3)%nat -> (r < 3)%nat -> (s < 3)%nat ->
  ten4 (m42t4 n v loc) i p q r s = tensor (fun a => tensor (fun b => v (i * 36 + (a * 6 + b))%nat) r s) p q.
Proof.
  intros Hi Hp Hq Hr Hs. unfold ten4, m42t4. rewrite (mat_mat_at n 81 36 _ _ _ i ((p * 3 + q) * 9 + (r * 3 + s))%nat Hi ltac:(lia)).
  rewrite rsum_36. rewrite <- (sum_tensor (fun a => tensor (fun b => v (i * 36 + (a * 6 + b))%nat) r s) p q Hp Hq). apply rsum_ext. intros a Ha.
  rewrite <- (sum_tensor (fun b => v (i * 36 + (a * 6 + b))%nat) r s Hr Hs). rewrite <- rsum_scal_r. apply rsum_ext. intros b Hb.
  rewrite (table4 a b (p * 3 + q)%nat (r * 3 + s)%nat Ha Hb) by lia. ring.
Qed.

(** *** Round trips *)
Lemma root2 : / sqrt 2 * / sqrt 2 = / 2.
Proof. rewrite <- Rinv_mult. rewrite sqrt_sqrt by lra. reflexivity. Qed.
Lemma mandel_tensor v k : (k < 6)%nat -> mandel (tensor v) k = v k.
Proof.
  intros Hk. assert (H : forall x, (x / sqrt 2 + x / sqrt 2) / sqrt 2 = x).
  { intros x. unfold Rdiv. transitivity (2 * x * (/ sqrt 2 * / sqrt 2)); [ring|]. rewrite root2. field. }
  do 6 (destruct k as [|k]; [cbn [mandel tensor]; try reflexivity; apply H|]). lia.
Qed.
Lemma tensor_mandel T i j : (i < 3)%nat -> (j < 3)%nat -> tensor (mandel T) i j = (T i j + T j i) / 2.
Proof.
  intros Hi Hj. assert (H : forall x y, (x + y) / sqrt 2 / sqrt 2 = (x + y) / 2).
  { intros x y. unfold Rdiv. transitivity ((x + y) * (/ sqrt 2 * / sqrt 2)); [ring|]. rewrite root2. reflexivity. }
  do 3 (destruct i as [|i]; [do 3 (destruct j as [|j]; [cbn [mandel tensor]; try (rewrite H); field|]); lia|]). lia.
Qed.
Lemma tensor_ext v w p q : (forall k, (k < 6)%nat -> v k = w k) -> tensor v p q = tensor w p q.
Proof. intros H. unfold tensor. destruct p as [|[|[|p]]]; destruct q as [|[|[|q]]]; try reflexivity; try (rewrite H by lia; reflexivity). Qed.
Lemma mandel_ext S T k : (forall p q, (p < 3)%nat -> (q < 3)%nat -> S p q = T p q) -> mandel S k = mandel T k.
Proof. intros H. unfold mandel. do 6 (destruct k as [|k]; [rewrite ?H by lia; reflexivity|]). reflexivity. Qed.
(** Mandel to tensor to Mandel loses nothing *)
Lemma there_and_back n v loc loc' i k : (i < n)%nat -> (k < 6)%nat -> t2m n (m2t n v loc) loc' (i * 6 + k)%nat = v (i * 6 + k)%nat.
Proof.
  intros Hi Hk. rewrite (t2m_value n _ _ i k Hi Hk). rewrite (mandel_ext (ten (m2t n v loc) i) (tensor (part 6 i v)) k) by (intros p q Hp Hq; apply m2t_value; assumption).
  rewrite (mandel_tensor _ k Hk). unfold part. rewrite (proj2 (Nat.ltb_lt k 6)) by exact Hk. reflexivity.
Qed.
(** tensor to Mandel to tensor gives the symmetric part *)
Lemma symmetric_part n a loc loc' i p q : (i < n)%nat -> (p < 3)%nat -> (q < 3)%nat -> ten (m2t n (t2m n a loc) loc') i p q = (ten a i p q + ten a i q p) / 2.
Proof.
  intros Hi Hp Hq. rewrite (m2t_value n _ _ i p q Hi Hp Hq). rewrite <- (tensor_mandel (ten a i) p q Hp Hq). apply tensor_ext. intros k Hk.
  unfold part. rewrite (proj2 (Nat.ltb_lt k 6)) by exact Hk. apply t2m_value; assumption.
Qed.
(** the fourth order tensor acts on tensors as the matrix acts on Mandel vectors *)
Lemma tensor_scal c v p q : tensor (fun a => v a * c) p q = tensor v p q * c.
Proof. unfold tensor. destruct p as [|[|[|p]]]; destruct q as [|[|[|q]]]; unfold Rdiv; ring. Qed.
Lemma tensor_plus v w p q : tensor (fun a => v a + w a) p q = tensor v p q + tensor w p q.
Proof. unfold tensor. destruct p as [|[|[|p]]]; destruct q as [|[|[|q]]]; unfold Rdiv; ring. Qed.
Lemma tensor_rsum n (f : nat -> vec) p q : tensor (fun a => rsum n (fun l => f l a)) p q = rsum n (fun l => tensor (f l) p q).
Proof. induction n as [|n IH]; cbn [rsum]; [unfold tensor; destruct p as [|[|[|p]]]; destruct q as [|[|[|q]]]; unfold Rdiv; ring|]. rewrite (tensor_plus (fun a => rsum n (fun l => f l a)) (f n)). rewrite IH. reflexivity. Qed.
Lemma contraction (v : vec) (E : nat -> nat -> R) : rsum 3 (fun r => rsum 3 (fun s => tensor v r s * E r s)) = rsum 6 (fun b => v b * mandel E b).
Proof. cbn [rsum tensor mandel]. unfold Rdiv. ring. Qed.
Lemma acts n v loc i (E : nat -> nat -> R) p q : (i < n)%nat -> (p < 3)%nat -> (q < 3)%nat ->
  rsum 3 (fun r => rsum 3 (fun s => ten4 (m42t4 n v loc) i p q r s * E r s)) = tensor (fun a => rsum 6 (fun b => v (i * 36 + (a * 6 + b))%nat * mandel E b)) p q.
Proof.
  intros Hi Hp Hq.
  transitivity (rsum 3 (fun r => rsum 3 (fun s => tensor (fun a => tensor (fun b => v (i * 36 + (a * 6 + b))%nat) r s * E r s) p q))).
  { apply rsum_ext. intros r Hr. apply rsum_ext. intros s Hs. rewrite (m42t4_value n v loc i p q r s) by assumption.
    symmetry. apply (tensor_scal (E r s) (fun a => tensor (fun b => v (i * 36 + (a * 6 + b))%nat) r s)). }
  transitivity (tensor (fun a => rsum 3 (fun r => rsum 3 (fun s => tensor (fun b => v (i * 36 + (a * 6 + b))%nat) r s * E r s))) p q).
  { rewrite (tensor_rsum 3 (fun r a => rsum 3 (fun s => tensor (fun b => v (i * 36 + (a * 6 + b))%nat) r s * E r s))). apply rsum_ext. intros r Hr.
    rewrite (tensor_rsum 3 (fun s a => tensor (fun b => v (i * 36 + (a * 6 + b))%nat) r s * E r s)). reflexivity. }
  apply tensor_ext. intros a Ha. apply (contraction (fun b => v (i * 36 + (a * 6 + b))%nat) E).
Qed.

(** *** The loop *)
Definition at_point (nh : nat) (i : nat) (r : pout) (o : kout) : Prop :=
  (forall j, (j < 6)%nat -> w_s o (i * 6 + j)%nat = r_s r j) /\ (forall j, (j < nh)%nat -> w_h o (i * nh + j)%nat = r_h r j) /\
  (forall j, (j < 36)%nat -> w_A o (i * 36 + j)%nat = r_A r j) /\ w_u o i = r_u r /\ w_p o i = r_p r.
Lemma fold_block m nh args : forall order o e, NoDup order ->
  let st := fold_left (block_one m nh args) order (o, e) in
  (snd st = true <-> e = true \/ exists i, In i order /\ snd (m (args i)) = false) /\
  (forall i, In i order -> at_point nh i (fst (m (args i))) (fst st)) /\
  (forall i r, ~ In i order -> at_point nh i r o -> at_point nh i r (fst st)).
Proof.
  induction order as [|i order IH]; intros o e ND.
  - cbn. split; [split; [intros H; left; exact H|intros [H|(i & [] & _)]; exact H]|]. split; [intros i []|intros; assumption].
  - inversion ND as [|? ? Hni ND']; subst. cbn [fold_left]. unfold block_one at 2 4 6. cbn [fst snd].
    match goal with |- context [fold_left (block_one m nh args) order (?x, ?y)] => destruct (IH x y ND') as (H1 & H2 & H3); set (o1 := x) in *; set (e1 := y) in * end. cbv zeta in *.
    assert (W : forall k, i <> k -> forall r, at_point nh k r o -> at_point nh k r o1).
    { intros k N r (A1 & A2 & A3 & A4 & A5). unfold at_point, o1. cbn [w_s w_h w_A w_u w_p].
      split; [intros j Hj; rewrite write_other by assumption; apply A1; exact Hj|]. split; [intros j Hj; rewrite write_other by assumption; apply A2; exact Hj|].
      split; [intros j Hj; rewrite write_other by assumption; apply A3; exact Hj|]. 
      pose proof (write_other 1 i k (fun _ => r_u (fst (m (args i)))) (w_u o) 0 N ltac:(lia)) as Y. pose proof (write_other 1 i k (fun _ => r_p (fst (m (args i)))) (w_p o) 0 N ltac:(lia)) as Z.
      replace (k * 1 + 0)%nat with k in Y, Z by lia. rewrite Y, Z. split; assumption. }
    assert (I : at_point nh i (fst (m (args i))) o1).
    { unfold at_point, o1. cbn [w_s w_h w_A w_u w_p]. split; [intros; apply write_in; assumption|]. split; [intros; apply write_in; assumption|]. split; [intros; apply write_in; assumption|].
      pose proof (write_in 1 i (fun _ => r_u (fst (m (args i)))) (w_u o) 0 ltac:(lia)) as Y. pose proof (write_in 1 i (fun _ => r_p (fst (m (args i)))) (w_p o) 0 ltac:(lia)) as Z.
      replace (i * 1 + 0)%nat with i in Y, Z by lia. split; assumption. }
    split; [|split].
    + rewrite H1. unfold e1. rewrite Bool.orb_true_iff, Bool.negb_true_iff. split.
      * intros [[E|E]|(k & Hk & E)]; [left; exact E|right; exists i; split; [left; reflexivity|exact E]|right; exists k; split; [right; exact Hk|exact E]].
      * intros [E|(k & [<-|Hk] & E)]; [left; left; exact E|left; right; exact E|right; exists k; split; assumption].
    + intros k [<-|Hk]; [apply H3; [exact Hni|exact I]|apply H2; exact Hk].
    + intros k r Hk A. apply H3; [intros C; apply Hk; right; exact C|]. apply W; [intros ->; apply Hk; left; reflexivity|exact A].
Qed.
Lemma point_alone nh n b loc i : (i < n)%nat -> point nh b (t2m n (k_e1 b) loc) (t2m n (k_e0 b) loc) (t2m n (k_s0 b) loc) i = alone nh b i.
Proof.
  intros Hi. assert (E : forall a, part 6 i (t2m n a loc) = cut6 (mandel (ten a i))).
  { intros a. apply functional_extensionality. intros k. unfold part, cut6. destruct (Nat.ltb k 6) eqn:L; [|reflexivity]. apply t2m_value; [exact Hi|apply Nat.ltb_lt; exact L]. }
  unfold point, alone. rewrite !E. reflexivity.
Qed.
(** When every point succeeds, each has the answer of the point on its own, in tensor form, whatever the schedule. *)
Lemma block_ok m nh n order b loc o : Permutation order (seq 0 n) -> (forall i, (i < n)%nat -> snd (m (alone nh b i)) = true) ->
  let w := block m nh n order b loc o in forall i, (i < n)%nat -> let r := fst (m (alone nh b i)) in
  (forall p q, (p < 3)%nat -> (q < 3)%nat -> ten (w_s w) i p q = tensor (r_s r) p q) /\
  (forall p q k l, (p < 3)%nat -> (q < 3)%nat -> (k < 3)%nat -> (l < 3)%nat -> ten4 (w_A w) i p q k l = tensor (fun a => tensor (fun c => r_A r (a * 6 + c)%nat) k l) p q) /\
  (forall j, (j < nh)%nat -> w_h w (i * nh + j)%nat = r_h r j) /\ w_u w i = r_u r /\ w_p w i = r_p r.
Proof.
  intros P Hok. cbv zeta. intros i Hi. destruct (order_facts order n P) as [ND HI]. unfold block.
  set (args := point nh b _ _ _). match goal with |- context [fold_left _ order (?x, false)] => destruct (fold_block m nh args order x false ND) as (H1 & H2 & _); set (st := fold_left (block_one m nh args) order (x, false)) in * end. cbv zeta in *.
  assert (Ea : forall k, (k < n)%nat -> args k = alone nh b k) by (intros k Hk; apply point_alone; exact Hk).
  assert (F : snd st = false).
  { destruct (snd st) eqn:F; [|reflexivity]. destruct (proj1 H1 eq_refl) as [C|(k & Hk & C)]; [discriminate|]. apply HI in Hk. rewrite (Ea k Hk), (Hok k Hk) in C. discriminate. }
  rewrite F. cbn [w_s w_h w_A w_u w_p]. destruct (H2 i (proj2 (HI i) Hi)) as (A1 & A2 & A3 & A4 & A5). rewrite (Ea i Hi) in *.
  split; [|split; [|split; [|split]]].
  - intros p q Hp Hq. rewrite (m2t_value n _ _ i p q Hi Hp Hq). apply tensor_ext. intros k Hk. unfold part. rewrite (proj2 (Nat.ltb_lt k 6)) by exact Hk. apply A1. exact Hk.
  - intros p q k l Hp Hq Hk Hl. rewrite (m42t4_value n _ _ i p q k l) by assumption. apply tensor_ext. intros a Ha. apply tensor_ext. intros c Hc. apply A3. lia.
  - exact A2.
  - exact A4.
  - exact A5.
Qed.
(** When a point fails, stress and tangent of the whole block stay what they were ... *)
Lemma block_failed m nh n order b loc o : Permutation order (seq 0 n) -> (exists i, (i < n)%nat /\ snd (m (alone nh b i)) = false) ->
  let w := block m nh n order b loc o in w_s w = w_s o /\ w_A w = w_A o.
Proof.
  intros P (i & Hi & Hf). cbv zeta. destruct (order_facts order n P) as [ND HI]. unfold block.
  set (args := point nh b _ _ _). match goal with |- context [fold_left _ order (?x, false)] => destruct (fold_block m nh args order x false ND) as (H1 & _ & _); set (st := fold_left (block_one m nh args) order (x, false)) in * end. cbv zeta in *.
  assert (F : snd st = true) by (apply H1; right; exists i; split; [apply HI; exact Hi|]; unfold args; rewrite (point_alone nh n b loc i Hi); exact Hf).
  rewrite F. cbn [w_s w_A]. split; reflexivity.
Qed.
(** ... and nothing tells the caller: a failing material is indistinguishable from one that returns zeros. *)
Definition dead (ok : bool) : pmodel := fun _ => ({| r_s := vzero; r_h := vzero; r_A := vzero; r_u := 0; r_p := 0 |}, ok).
Definition zeros : kout := {| w_s := vzero; w_h := vzero; w_A := vzero; w_u := vzero; w_p := vzero |}.
Lemma silent b nh : exists n order, (0 < n)%nat /\ Permutation order (seq 0 n) /\ block (dead false) nh n order b vzero zeros = block (dead true) nh n order b vzero zeros.
Proof.
  exists 1%nat, [0%nat]. split; [lia|]. split; [apply Permutation_refl|]. unfold block. cbn [fold_left]. unfold block_one. cbn [fst snd dead orb negb w_s w_h w_A w_u w_p zeros r_s r_h r_A r_u r_p].
  f_equal.
  - apply functional_extensionality. intros p. unfold m2t, mat_mat. destruct (Nat.ltb p (1 * 9)) eqn:L; [|reflexivity]. symmetry. unfold vzero at 3.
    match goal with |- rsum ?n _ = _ => rewrite <- (rsum_0 n) end. apply rsum_ext. intros l Hl. unfold write, vzero. destruct (andb _ _); ring.
  - apply functional_extensionality. intros p. unfold m42t4, mat_mat. destruct (Nat.ltb p (1 * 81)) eqn:L; [|reflexivity]. symmetry. unfold vzero at 3.
    match goal with |- rsum ?n _ = _ => rewrite <- (rsum_0 n) end. apply rsum_ext. intros l Hl. unfold write, vzero. destruct (andb _ _); ring.
Qed.

(** *** The C interface *)
Lemma c_failure : (forall A ier, c_create (@Throws A) ier = (None, (-1)%Z)) /\ (forall ier, c_destroy Throws ier = (-1)%Z) /\ (forall c ier, c_threw c -> c_step ier c = (-1)%Z).
Proof. split; [reflexivity|]. split; [reflexivity|]. intros [r|r|r] ier H; cbn in H; subst; reflexivity. Qed.
Lemma c_success : (forall A (a : A) ier, c_create (Returns a) ier = (Some a, 0%Z)) /\ (forall u ier, c_destroy (Returns u) ier = 0%Z).
Proof. split; reflexivity. Qed.
Lemma c_success_refuted : exists c ier, ~ c_threw c /\ c_step ier c <> 0%Z.
Proof. exists (Update (Returns tt)), (-1)%Z. split; [cbn; discriminate|discriminate]. Qed.
(** starting from zero, *ier is zero after any sequence of calls exactly when none threw: the flag sticks *)
Lemma c_sequence cs : fold_left c_step cs 0%Z = 0%Z <-> Forall (fun c => ~ c_threw c) cs.
Proof.
  assert (Stick : forall cs ier, ier <> 0%Z -> fold_left c_step cs ier <> 0%Z).
  { induction cs0 as [|c cs0 IH]; intros ier H; [exact H|]. cbn [fold_left]. apply IH. destruct c as [[u|]|[u|]|[u|]]; cbn; (exact H || discriminate). }
  induction cs as [|c cs IH]; [split; [constructor|reflexivity]|]. cbn [fold_left].
  assert (D : (c_step 0 c = 0%Z /\ ~ c_threw c) \/ (c_step 0 c = (-1)%Z /\ c_threw c)).
  { destruct c as [[u|]|[u|]|[u|]]; cbn; ((left; split; [reflexivity|discriminate]) || (right; split; reflexivity)). }
  destruct D as [[E N]|[E Y]]; rewrite E.
  - rewrite IH. split; [intros H; constructor; assumption|intros H; inversion H; assumption].
  - split; [intros H; exfalso; apply (Stick cs (-1)%Z ltac:(discriminate) H)|intros H; inversion H; contradiction].
Qed.
Lemma c_nstore_value r : (c_nstore r = (-1)%Z <-> r = Throws) /\ forall n, r = Returns n -> c_nstore r = Z.of_nat n.
Proof. destruct r as [n|]; cbn; split; try (split; [intros H; (lia || reflexivity)|intros H; (discriminate || reflexivity)]); intros k H; [injection H as ->; reflexivity|discriminate]. Qed.
Lemma c_alpha_refuted : exists r : thrown R, r <> Throws /\ c_alpha r = c_alpha Throws.
Proof. exists (Returns (-1)). split; [discriminate|reflexivity]. Qed.
