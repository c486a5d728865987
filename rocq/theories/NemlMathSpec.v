(** Index notation used to state what the Mandel/skew helpers mean. *)
From Coq Require Import ZArith.
From Verif Require Import Base.

(** entry (i,j) of a flat 3x3 array, entry (i,j,k,l) of a flat 3x3x3x3 array, entry
    (I,J) of a flat matrix with n columns *)
Definition t2 (A : vec) (i j : nat) : R := A (3 * i + j)%nat.
Definition t4 (A : vec) (i j k l : nat) : R := A (27 * i + 9 * j + 3 * k + l)%nat.
Definition flat (n : nat) (A : vec) : mat := fun i j => A (n * i + j)%nat.

Definition is_sym2 (A : vec) : Prop := forall i j, (i < 3)%nat -> (j < 3)%nat -> t2 A i j = t2 A j i.
Definition is_skew2 (A : vec) : Prop := forall i j, (i < 3)%nat -> (j < 3)%nat -> t2 A i j = - t2 A j i.
(** first pair / second pair symmetric or skew *)
Definition sym_first (A : vec) : Prop := forall i j k l, (i < 3)%nat -> (j < 3)%nat -> (k < 3)%nat -> (l < 3)%nat -> t4 A i j k l = t4 A j i k l.
Definition sym_second (A : vec) : Prop := forall i j k l, (i < 3)%nat -> (j < 3)%nat -> (k < 3)%nat -> (l < 3)%nat -> t4 A i j k l = t4 A i j l k.
Definition skew_first (A : vec) : Prop := forall i j k l, (i < 3)%nat -> (j < 3)%nat -> (k < 3)%nat -> (l < 3)%nat -> t4 A i j k l = - t4 A j i k l.
Definition skew_second (A : vec) : Prop := forall i j k l, (i < 3)%nat -> (j < 3)%nat -> (k < 3)%nat -> (l < 3)%nat -> t4 A i j k l = - t4 A i j l k.

(** double contraction A_ijkl B_kl and A_ij B_ij *)
Definition ddot42 (A B : vec) (i j : nat) : R := rsum 3 (fun k => rsum 3 (fun l => t4 A i j k l * t2 B k l)).
Definition ddot22 (A B : vec) : R := rsum 3 (fun i => rsum 3 (fun j => t2 A i j * t2 B i j)).
Definition ddot44 (A B : vec) (i j k l : nat) : R :=
  rsum 3 (fun m => rsum 3 (fun n => t4 A i j m n * t4 B m n k l)).
Definition tr2 (A : vec) : R := t2 A 0 0 + t2 A 1 1 + t2 A 2 2.
(** matrix product of 3x3 tensors *)
Definition mul2 (A B : nat -> nat -> R) (i j : nat) : R := rsum 3 (fun k => A i k * B k j).
