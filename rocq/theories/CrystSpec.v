(** What the crystallography properties mean, in terms of rotations and lattices only. *)
From Coq Require Import ZArith.
From Verif Require Import Base.
From Verif Require Import NemlMathSpec RotModel RotSpec.

(** two quaternions describe the same rotation *)
Definition same_turn (a b : quat) : Prop := meq3 (t2 (to_matrix a)) (t2 (to_matrix b)).
(** a list of rotations is a finite group, each element listed once *)
Definition rot_group (l : list quat) : Prop :=
  (forall a, In a l -> unitq a) /\
  (exists e, In e l /\ same_turn e qone) /\
  (forall a b, In a l -> In b l -> exists c, In c l /\ same_turn c (qmul a b)) /\
  (forall a, In a l -> exists c, In c l /\ same_turn c (qconj a)) /\
  (forall i j a b, nth_error l i = Some a -> nth_error l j = Some b -> same_turn a b -> i = j).
(** the angle of a rotation, between 0 and pi, the same for the two quaternions of a rotation *)
Definition turn_angle (q : quat) : R := 2 * acos (Rabs (q0 q)).
(** the vector with integer coordinates n in the cell a1, a2, a3 *)
Definition lattice_vec (a1 a2 a3 v : vec) : Prop :=
  exists n1 n2 n3 : Z, forall k, (k < 3)%nat -> v k = IZR n1 * a1 k + IZR n2 * a2 k + IZR n3 * a3 k.
(** the volume of the cell, a1 . (a2 x a3) *)
Definition cell_volume (a b c : vec) : R := ndot a (ncross b c).
(** the three integers have no common divisor but 1 and -1 *)
Definition no_common_factor (h k l : Z) : Prop := forall d, (d | h)%Z -> (d | k)%Z -> (d | l)%Z -> (d | 1)%Z.
(** componentwise agreement to the library's tolerance 1e-8 + 1e-5 |b| *)
Definition near (a b : vec) : Prop := forall i, (i < 3)%nat -> Rabs (a i - b i) <= 1e-8 + 1e-5 * Rabs (b i).
