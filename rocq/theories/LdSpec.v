(** What the large-strain update is meant to do, in index notation. *)
From Verif Require Import Base.
From Verif Require Import NemlMathModel.
From Verif Require Import NemlMathSpec.

(** velocity-gradient increment L = D + W as a 3x3 array, from the Mandel vector of the
    symmetric part and the three skew components *)
Definition vel_grad (D W : vec) (i j : nat) : R := t2 (usym D) i j + t2 (uskew W) i j.
Definition tr3 (L : nat -> nat -> R) : R := L 0%nat 0%nat + L 1%nat 1%nat + L 2%nat 2%nat.
Definition stress (s : vec) (i j : nat) : R := t2 (usym s) i j.
(** backward Euler for the Truesdell rate:
    S' = S_n + dS + L S' + S' L^T - tr(L) S' *)
Definition truesdell_step (L : nat -> nat -> R) (s_n dS s : vec) : Prop :=
  forall i j, (i < 3)%nat -> (j < 3)%nat ->
  stress s i j = stress s_n i j + stress dS i j
     + rsum 3 (fun k => L i k * stress s k j) + rsum 3 (fun k => stress s i k * L j k) - tr3 L * stress s i j.
