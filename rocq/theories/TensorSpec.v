(** Index notation for the tensor classes. *)
From Verif Require Import Base.
From Verif Require Import NemlMathSpec.

(** symmetric and skew parts, transpose, sums of matrices *)
Definition symm2 (A : nat -> nat -> R) (i j : nat) : R := (A i j + A j i) / 2.
Definition skewp2 (A : nat -> nat -> R) (i j : nat) : R := (A i j - A j i) / 2.
Definition trans2 (A : nat -> nat -> R) (i j : nat) : R := A j i.
Definition add2 (A B : nat -> nat -> R) (i j : nat) : R := A i j + B i j.
Definition sub2 (A B : nat -> nat -> R) (i j : nat) : R := A i j - B i j.
(** A_ij B_ij and A_ii *)
Definition inner2 (A B : nat -> nat -> R) : R := rsum 3 (fun i => rsum 3 (fun j => A i j * B i j)).
Definition trace2 (A : nat -> nat -> R) : R := rsum 3 (fun i => A i i).
(** A_ijkl B_kl and A_ijmn B_mnkl *)
Definition act4 (A : nat -> nat -> nat -> nat -> R) (B : nat -> nat -> R) (i j : nat) : R :=
  rsum 3 (fun k => rsum 3 (fun l => A i j k l * B k l)).
Definition prod4 (A B : nat -> nat -> nat -> nat -> R) (i j k l : nat) : R :=
  rsum 3 (fun m => rsum 3 (fun n => A i j m n * B m n k l)).
Definition meq4 (A B : nat -> nat -> nat -> nat -> R) : Prop :=
  forall i j k l, (i < 3)%nat -> (j < 3)%nat -> (k < 3)%nat -> (l < 3)%nat -> A i j k l = B i j k l.
