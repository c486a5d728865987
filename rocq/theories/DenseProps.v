(** Dense vectors and matrices *)
From Verif Require Import Base.
From Verif Require Import DenseModel DenseProofs.
From Coq Require Import Lia Lra List String.
Import ListNotations.
Open Scope R_scope.

(** ** C89 *)
(** each way to describe a square matrix: the zero matrix *)
Theorem C89_zero : forall m data blocks d, exists A, square m "zero" data blocks d = Some A /\ forall i j, (i < m)%nat -> (j < m)%nat -> mx_at A i j = 0.
Proof. exact @square_zero. Qed.
Print Assumptions C89_zero.
(** the identity *)
Theorem C89_identity : forall m data blocks d, exists A, square m "identity" data blocks d = Some A /\ forall i j, (i < m)%nat -> (j < m)%nat -> mx_at A i j = if Nat.eqb i j then 1 else 0.
Proof. exact @square_identity. Qed.
Print Assumptions C89_identity.
(** a diagonal, refused exactly if it has the wrong length *)
Theorem C89_diagonal : forall m data blocks d, (square m "diagonal" data blocks d = None <-> List.length data <> m) /\
  forall A, square m "diagonal" data blocks d = Some A -> forall i j, (i < m)%nat -> (j < m)%nat -> mx_at A i j = if Nat.eqb i j then nth i data 0 else 0.
Proof. exact @square_diagonal. Qed.
Print Assumptions C89_diagonal.
(** a diagonal constant on blocks *)
Theorem C89_diagonal_blocks : forall m data blocks d, (square m "diagonal_blocks" data blocks d = None <-> List.length data <> List.length blocks \/ list_sum blocks <> m) /\
  forall A, square m "diagonal_blocks" data blocks d = Some A -> forall i j bi bj, same_block blocks i j bi bj -> mx_at A i j = if Nat.eqb i j then nth bi data 0 else 0.
Proof. exact @square_diagonal_blocks. Qed.
Print Assumptions C89_diagonal_blocks.
(** blocks of equal entries, refused exactly if sizes do not match *)
Theorem C89_block : forall m data blocks d, (square m "block" data blocks d = None <-> List.length data <> (List.length blocks * List.length blocks)%nat \/ list_sum blocks <> m) /\
  forall A, square m "block" data blocks d = Some A -> forall i j bi bj, same_block blocks i j bi bj -> mx_at A i j = nth (bi * List.length blocks + bj) data 0.
Proof. exact @square_block. Qed.
Print Assumptions C89_block.
(** every place lies in exactly one pair of blocks *)
Theorem C89_every_entry : forall blocks i j, (i < list_sum blocks)%nat -> (j < list_sum blocks)%nat -> exists! p, same_block blocks i j (fst p) (snd p).
Proof. exact @same_block_exists. Qed.
Print Assumptions C89_every_entry.
(** all entries, row by row *)
Theorem C89_dense : forall m data blocks d, (square m "dense" data blocks d = None <-> List.length data <> (m * m)%nat) /\
  forall A, square m "dense" data blocks d = Some A -> forall i j, (i < m)%nat -> (j < m)%nat -> mx_at A i j = nth (i * m + j) data 0.
Proof. exact @square_dense. Qed.
Print Assumptions C89_dense.
(** any other description is refused *)
Theorem C89_unknown_kind : forall m ty data blocks d, ~ In ty ["zero"; "identity"; "diagonal"; "diagonal_blocks"; "block"; "dense"]%string -> square m ty data blocks d = None.
Proof. exact @square_other. Qed.
Print Assumptions C89_unknown_kind.
(** no entry is left uninitialised: what was in the memory does not matter *)
Theorem C89_initialised : forall m ty data blocks d1 d2, match square m ty data blocks d1, square m ty data blocks d2 with
  | Some A, Some B => forall i j, (i < m)%nat -> (j < m)%nat -> mx_at A i j = mx_at B i j | None, None => True | _, _ => False end.
Proof. exact @square_clean. Qed.
Print Assumptions C89_initialised.
Theorem C89_dimensions : forall m ty data blocks d A, square m ty data blocks d = Some A -> mx_m A = m /\ mx_n A = m.
Proof. exact @square_dims. Qed.
Print Assumptions C89_dimensions.
(** the product with a vector *)
Theorem C89_product : forall A x y, mx_m A = mx_n A -> mx_dot A x = Some y -> List.length y = mx_m A /\ forall i, (i < mx_m A)%nat -> nth i y 0 = rsum (mx_n A) (fun j => mx_at A i j * nth j x 0).
Proof. exact @mx_dot_square. Qed.
Print Assumptions C89_product.
(** refused exactly if the sizes do not match *)
Theorem C89_product_sizes : forall A x, mx_dot A x = None <-> List.length x <> mx_n A.
Proof. exact @mx_dot_sizes. Qed.
Print Assumptions C89_product_sizes.
(** writing an entry changes no other *)
Theorem C89_write : forall A i j i' j' v, mx_m A = mx_n A -> (j < mx_n A)%nat -> (j' < mx_n A)%nat -> mx_at (mx_set A i j v) i' j' = if andb (Nat.eqb i' i) (Nat.eqb j' j) then v else mx_at A i' j'.
Proof. exact @mx_set_get. Qed.
Print Assumptions C89_write.
(** of a matrix that is not square, the entries read are not those used in the product *)
Theorem C89_rectangular_refuted : exists A x y, mx_dot A x = Some y /\ exists i, (i < mx_m A)%nat /\ nth i y 0 <> rsum (mx_n A) (fun j => mx_at A i j * nth j x 0).
Proof. exact @mx_dot_rect. Qed.
Print Assumptions C89_rectangular_refuted.
(** with more rows than columns entries lie outside the storage *)
Theorem C89_rectangular_outside_refuted : forall m n d, (n < m)%nat -> (0 < n)%nat -> exists i j, (i < m)%nat /\ (j < n)%nat /\ (m * n <= cindex i j (mx_m {| mx_m := m; mx_n := n; mx_d := d |}))%nat.
Proof. exact @mx_outside. Qed.
Print Assumptions C89_rectangular_outside_refuted.
(** and with more columns than rows different entries share a place *)
Theorem C89_rectangular_shared_refuted : forall m n d v, (1 < m)%nat -> (m < n)%nat -> let A := {| mx_m := m; mx_n := n; mx_d := d |} in
  exists i j i' j', (i < m)%nat /\ (j < n)%nat /\ (i' < m)%nat /\ (j' < n)%nat /\ (i, j) <> (i', j') /\ mx_at (mx_set A i j v) i' j' = v.
Proof. exact @mx_shared. Qed.
Print Assumptions C89_rectangular_shared_refuted.
(** over any use of construction, wrapping, copying and destruction nothing is freed twice and nothing is left over *)
Theorem C89_memory : forall l, proper empty_store l -> exists s, acts empty_store l = Some s /\ ((forall i, obj s i = None) -> so_live s = []).
Proof. exact @memory_safe. Qed.
Print Assumptions C89_memory.
(** assignment of vectors frees memory twice *)
Theorem C89_memory_assignment_refuted : exists l, acts empty_store (firstn 3 l) <> None /\ acts empty_store (firstn 4 l) <> None /\ acts empty_store l = None /\ l = [Make; Make; Assign 0 1; Drop 0; Drop 1]%nat.
Proof. exact @assigned_twice. Qed.
Print Assumptions C89_memory_assignment_refuted.
(** or never *)
Theorem C89_memory_leak_refuted : exists s, acts empty_store [Make; Wrap 0; Assign 0 1; Drop 0; Drop 1]%nat = Some s /\ (forall i, obj s i = None) /\ so_live s <> [].
Proof. exact @assigned_leak. Qed.
Print Assumptions C89_memory_leak_refuted.
(** a copied matrix frees its memory twice *)
Theorem C89_memory_matrix_copy_refuted : acts empty_store [Make; Shallow 0; Drop 1]%nat <> None /\ acts empty_store [Make; Shallow 0; Drop 1; Drop 0]%nat = None.
Proof. exact @copied_matrix_twice. Qed.
Print Assumptions C89_memory_matrix_copy_refuted.
(** the hypotheses are met *)
Example C89_block_case : exists A, square 3 "block" [1; 2; 3; 4] [1; 2]%nat (fun _ => 7) = Some A /\ same_block [1; 2]%nat 2 0 1 0 /\ mx_at A 2 0 = 3.
Proof. eexists. split; [reflexivity|]. split; [unfold same_block; cbn; lia|reflexivity]. Qed.
Example C89_product_case : exists A, square 2 "dense" [1; 2; 3; 4] [] (fun _ => 7) = Some A /\ mx_m A = mx_n A /\ mx_dot A [1; 1] <> None.
Proof. eexists. split; [reflexivity|]. split; [reflexivity|cbn; discriminate]. Qed.
Example C89_memory_case : proper empty_store [Make; Wrap 0; Copy 0; Drop 1; Drop 0; Drop 2]%nat /\
  exists s, acts empty_store [Make; Wrap 0; Copy 0; Drop 1; Drop 0; Drop 2]%nat = Some s /\ forall i, obj s i = None.
Proof.
  split.
  - cbn [proper plain names]. repeat (split; [first [exact I | cbn; discriminate]|]; try (split; [first [exact I | cbn; discriminate]|]; intros ? E; cbn in E; inversion E; subst; clear E)). exact I.
  - eexists. split; [reflexivity|]. intros [|[|[|[|i]]]]; reflexivity.
Qed.
