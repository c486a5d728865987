(** What a driven history of deformation gradients means. *)
From Coq Require Import List.
From Verif Require Import Base NemlMathModel DgModel.
From Coq Require Import List.
Import ListNotations.
Open Scope R_scope.

(** the entries of the returned lists *)
Definition time_at (r : dg) (k : nat) : R := nth k (dg_t r) 0.
Definition stress_at (r : dg) (k : nat) : vec := nth k (dg_s r) vzero.
Definition F_at (r : dg) (k : nat) : mat := nth k (dg_F r) matzero.
Definition D_at (r : dg) (k : nat) : vec := nth k (dg_D r) vzero.
Definition W_at (r : dg) (k : nat) : vec := nth k (dg_W r) vzero.
Definition store_at (r : dg) (k : nat) : vec := nth k (dg_h r) vzero.
Definition energy_at (r : dg) (k : nat) : R := nth k (dg_u r) 0.
Definition dissipation_at (r : dg) (k : nat) : R := nth k (dg_p r) 0.
(** the tensor of a strain and a spin in the library's notations: Mandel and skew vectors *)
Definition gradient (d w : vec) (i j : nat) : R := usym d (3 * i + j)%nat + uskew w (3 * i + j)%nat.
(** the increment from k to k + 1 *)
Definition dL (r : dg) (k : nat) : nat -> nat -> R := gradient (vsub (D_at r (S k)) (D_at r k)) (vsub (W_at r (S k)) (W_at r k)).
Definition scaled (l : nat -> R -> R) : R -> mat := fun t i j => if Nat.eqb i j then l i t else 0.
Definition rotation_z (a : R) : mat := fun i j =>
  match i, j with 0%nat, 0%nat => cos a | 0%nat, 1%nat => - sin a | 1%nat, 0%nat => sin a | 1%nat, 1%nat => cos a | 2%nat, 2%nat => 1 | _, _ => 0 end.
