(** Blocks of points and the C interface *)
From Verif Require Import Base Diff NemlMathModel NemlMathSpec PolyModel BlockModel BlockSpec BlockProofs.
From Coq Require Import List Arith ZArith Lia Lra Permutation.
Import ListNotations.
Open Scope R_scope.

(** ** C40 *)
(** every call that threw leaves -1, and create returns NULL *)
Theorem C40_failure : (forall A ier, c_create (@Throws A) ier = (None, (-1)%Z)) /\ (forall ier, c_destroy Throws ier = (-1)%Z) /\ (forall c ier, c_threw c -> c_step ier c = (-1)%Z).
Proof. exact c_failure. Qed.
Print Assumptions C40_failure.
(** create and destroy set 0 on success *)
Theorem C40_success_partial : (forall A (a : A) ier, c_create (Returns a) ier = (Some a, 0%Z)) /\ (forall u ier, c_destroy (Returns u) ier = 0%Z).
Proof. exact c_success. Qed.
Print Assumptions C40_success_partial.
(** the other calls do not: an old error stays *)
Theorem C40_success_refuted : exists c ier, ~ c_threw c /\ c_step ier c <> 0%Z.
Proof. exact c_success_refuted. Qed.
Print Assumptions C40_success_refuted.
(** starting from 0, after any sequence of the other calls the flag is 0 exactly when none threw *)
Theorem C40_sequence : forall cs, fold_left c_step cs 0%Z = 0%Z <-> Forall (fun c => ~ c_threw c) cs.
Proof. exact c_sequence. Qed.
Print Assumptions C40_sequence.
(** the size is -1 exactly when the call threw *)
Theorem C40_nstore : forall r, (c_nstore r = (-1)%Z <-> r = Throws) /\ forall n, r = Returns n -> c_nstore r = Z.of_nat n.
Proof. exact c_nstore_value. Qed.
Print Assumptions C40_nstore.
(** the thermal expansion returned on failure is also a value *)
Theorem C40_alpha_refuted : exists r : thrown R, r <> Throws /\ c_alpha r = c_alpha Throws.
Proof. exact c_alpha_refuted. Qed.
Print Assumptions C40_alpha_refuted.
Example C40_case : fold_left c_step [Init (Returns tt); Update (Returns tt); Update Throws; Estrain (Returns tt)] 0%Z = (-1)%Z.
Proof. reflexivity. Qed.

(** ** C41 *)
(** tensors to Mandel vectors *)
Theorem C41_to_mandel : forall n a loc i k, (i < n)%nat -> (k < 6)%nat -> t2m n a loc (i * 6 + k)%nat = mandel (ten a i) k.
Proof. exact t2m_value. Qed.
Print Assumptions C41_to_mandel.
(** Mandel vectors to tensors *)
Theorem C41_to_tensor : forall n v loc i p q, (i < n)%nat -> (p < 3)%nat -> (q < 3)%nat -> ten (m2t n v loc) i p q = tensor (part 6 i v) p q.
Proof. exact m2t_value. Qed.
Print Assumptions C41_to_tensor.
(** nothing is lost from Mandel vectors *)
Theorem C41_mandel_round_trip : forall n v loc loc' i k, (i < n)%nat -> (k < 6)%nat -> t2m n (m2t n v loc) loc' (i * 6 + k)%nat = v (i * 6 + k)%nat.
Proof. exact there_and_back. Qed.
Print Assumptions C41_mandel_round_trip.
(** tensors keep their symmetric part *)
Theorem C41_tensor_round_trip : forall n a loc loc' i p q, (i < n)%nat -> (p < 3)%nat -> (q < 3)%nat -> ten (m2t n (t2m n a loc) loc') i p q = (ten a i p q + ten a i q p) / 2.
Proof. exact symmetric_part. Qed.
Print Assumptions C41_tensor_round_trip.
(** the 36 x 81 table turns a 6 x 6 matrix into its fourth order tensor *)
Theorem C41_fourth_order : forall n v loc i p q r s, (i < n)%nat -> (p < 3)%nat -> (q < 3)%nat -> (r < 3)%nat -> (s < 3)%nat ->
  ten4 (m42t4 n v loc) i p q r s = tensor (fun a => tensor (fun b => v (i * 36 + (a * 6 + b))%nat) r s) p q.
Proof. exact m42t4_value. Qed.
Print Assumptions C41_fourth_order.
(** which acts on tensors as the matrix acts on Mandel vectors *)
Theorem C41_fourth_order_acts : forall n v loc i (E : nat -> nat -> R) p q, (i < n)%nat -> (p < 3)%nat -> (q < 3)%nat ->
  rsum 3 (fun r => rsum 3 (fun s => ten4 (m42t4 n v loc) i p q r s * E r s)) = tensor (fun a => rsum 6 (fun b => v (i * 36 + (a * 6 + b))%nat * mandel E b)) p q.
Proof. exact acts. Qed.
Print Assumptions C41_fourth_order_acts.
(** if every point succeeds, each gets the answer it would get alone, whatever the schedule *)
Theorem C41_points : forall m nh n order b loc o, Permutation order (seq 0 n) -> (forall i, (i < n)%nat -> snd (m (alone nh b i)) = true) ->
  let w := block m nh n order b loc o in forall i, (i < n)%nat -> let r := fst (m (alone nh b i)) in
  (forall p q, (p < 3)%nat -> (q < 3)%nat -> ten (w_s w) i p q = tensor (r_s r) p q) /\
  (forall p q k l, (p < 3)%nat -> (q < 3)%nat -> (k < 3)%nat -> (l < 3)%nat -> ten4 (w_A w) i p q k l = tensor (fun a => tensor (fun c => r_A r (a * 6 + c)%nat) k l) p q) /\
  (forall j, (j < nh)%nat -> w_h w (i * nh + j)%nat = r_h r j) /\ w_u w i = r_u r /\ w_p w i = r_p r.
Proof. exact block_ok. Qed.
Print Assumptions C41_points.
(** if a point fails, stress and tangent of the block are left as they were *)
Theorem C41_failure_partial : forall m nh n order b loc o, Permutation order (seq 0 n) -> (exists i, (i < n)%nat /\ snd (m (alone nh b i)) = false) ->
  let w := block m nh n order b loc o in w_s w = w_s o /\ w_A w = w_A o.
Proof. exact block_failed. Qed.
Print Assumptions C41_failure_partial.
(** but nothing tells the caller *)
Theorem C41_failure_refuted : forall b nh, exists n order, (0 < n)%nat /\ Permutation order (seq 0 n) /\ block (dead false) nh n order b vzero zeros = block (dead true) nh n order b vzero zeros.
Proof. exact silent. Qed.
Print Assumptions C41_failure_refuted.
Example C41_case : Permutation [2%nat; 0%nat; 1%nat] (seq 0 3) /\ forall b i, snd (dead true (alone 2 b i)) = true.
Proof. split; [|reflexivity]. cbn. apply (Permutation_trans (perm_swap 0%nat 2%nat [1%nat])). apply perm_skip. apply perm_swap. Qed.
