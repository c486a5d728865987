(** What rotations, quaternion algebra and Euler angles mean, independently of
    src/math/rotations.cxx.  Only the record [quat] is shared with the model. *)
From Verif Require Import Base.
From Verif Require Import NemlMathSpec.
From Verif Require Import RotModel.

(** the unit quaternions and the neutral element *)
Definition unitq (q : quat) : Prop := q0 q * q0 q + q1 q * q1 q + q2 q * q2 q + q3 q * q3 q = 1.
Definition qone : quat := Quat 1 0 0 0.

(** ** 3x3 matrices as functions of two indices *)
Definition det3 (M : nat -> nat -> R) : R :=
  M 0%nat 0%nat * (M 1%nat 1%nat * M 2%nat 2%nat - M 1%nat 2%nat * M 2%nat 1%nat)
  - M 0%nat 1%nat * (M 1%nat 0%nat * M 2%nat 2%nat - M 1%nat 2%nat * M 2%nat 0%nat)
  + M 0%nat 2%nat * (M 1%nat 0%nat * M 2%nat 1%nat - M 1%nat 1%nat * M 2%nat 0%nat).
(** proper rotation: orthonormal rows, determinant one *)
Definition is_rot (M : nat -> nat -> R) : Prop :=
  (forall i j, (i < 3)%nat -> (j < 3)%nat -> rsum 3 (fun k => M i k * M j k) = delta i j) /\ det3 M = 1.
Definition meq3 (A B : nat -> nat -> R) : Prop := forall i j, (i < 3)%nat -> (j < 3)%nat -> A i j = B i j.
Definition id3 : nat -> nat -> R := delta.
(** matrix times vector *)
Definition mv3 (M : nat -> nat -> R) (v : vec) : vec := fun i => rsum 3 (fun k => M i k * v k).

(** ** Rodrigues' formula: the vector v turned by the angle a about the axis n *)
Definition ndot (a b : vec) : R := rsum 3 (fun k => a k * b k).
Definition ncross (a b : vec) (i : nat) : R :=
  match i with
  | 0%nat => a 1%nat * b 2%nat - a 2%nat * b 1%nat
  | 1%nat => a 2%nat * b 0%nat - a 0%nat * b 2%nat
  | _ => a 0%nat * b 1%nat - a 1%nat * b 0%nat
  end.
Definition turned (n : vec) (a : R) (v : vec) : vec := fun i =>
  cos a * v i + sin a * ncross n v i + (1 - cos a) * ndot n v * n i.
Definition unit_vec (n : vec) : Prop := ndot n n = 1.

(** ** Euler angles: Bunge's matrix is the product of three elementary changes of frame *)
Definition zframe (t : R) (i j : nat) : R :=
  match i, j with
  | 0%nat, 0%nat => cos t | 0%nat, 1%nat => sin t | 1%nat, 0%nat => - sin t | 1%nat, 1%nat => cos t | 2%nat, 2%nat => 1 | _, _ => 0 end.
Definition xframe (t : R) (i j : nat) : R :=
  match i, j with
  | 0%nat, 0%nat => 1 | 1%nat, 1%nat => cos t | 1%nat, 2%nat => sin t | 2%nat, 1%nat => - sin t | 2%nat, 2%nat => cos t | _, _ => 0 end.
Definition bunge (phi1 Phi phi2 : R) : nat -> nat -> R := mul2 (zframe phi2) (mul2 (xframe Phi) (zframe phi1)).
(** Kocks (Psi, Theta, phi): Psi = phi1 - 90, Theta = Phi, phi = 90 - phi2;
    Roe (Psi, Theta, phi): Psi = phi1 - 90, Theta = Phi, phi = phi2 + 90 *)
Definition kocks (Psi Theta phi : R) := bunge (Psi + PI / 2) Theta (PI / 2 - phi).
Definition roe (Psi Theta phi : R) := bunge (Psi + PI / 2) Theta (phi - PI / 2).

(** ** Tensors turned by a matrix M *)
Definition turn2 (M A : nat -> nat -> R) (i j : nat) : R :=
  rsum 3 (fun m => rsum 3 (fun n => M i m * M j n * A m n)).
Definition turn4 (M : nat -> nat -> R) (A : nat -> nat -> nat -> nat -> R) (i j k l : nat) : R :=
  rsum 3 (fun m => rsum 3 (fun n => rsum 3 (fun o => rsum 3 (fun p =>
    M i m * M j n * M k o * M l p * A m n o p)))).
