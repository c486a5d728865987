(** What the elastic constants mean. *)
From Coq Require Import String List.
From Verif Require Import Base.
From Verif Require Import NemlMathModel.
From Verif Require Import NemlMathSpec.
Import ListNotations.
Local Open Scope string_scope.

(** An isotropic material given by its four moduli. *)
Record material := { mE : R; mNu : R; mG : R; mK : R }.
Definition admissible (m : material) : Prop :=
  0 < mG m /\ 0 < mK m /\ mE m = 2 * mG m * (1 + mNu m) /\ mE m = 3 * mK m * (1 - 2 * mNu m).
(** the modulus a type name stands for *)
Definition modulus (m : material) (t : string) (v : R) : Prop :=
  (t = "youngs" /\ v = mE m) \/ (t = "poissons" /\ v = mNu m) \/ (t = "shear" /\ v = mG m) \/ (t = "bulk" /\ v = mK m).

(** rotation of a fourth order tensor: Q_ia Q_jb Q_kc Q_ld A_abcd *)
Definition rot4 (Q : mat) (A : vec) (i j k l : nat) : R :=
  rsum 3 (fun a => rsum 3 (fun b => rsum 3 (fun c => rsum 3 (fun d => Q i a * Q j b * Q k c * Q l d * t4 A a b c d)))).
Definition orthogonal (Q : mat) : Prop := forall i j, (i < 3)%nat -> (j < 3)%nat -> rsum 3 (fun k => Q i k * Q j k) = delta i j.
Definition invariant (Q : mat) (C : vec) : Prop := forall i j k l, (i < 3)%nat -> (j < 3)%nat -> (k < 3)%nat -> (l < 3)%nat ->
  rot4 Q (mandel2full C) i j k l = t4 (mandel2full C) i j k l.
(** the full cubic group: signed permutation matrices *)
Definition signed_permutation (Q : mat) : Prop := exists (p : nat -> nat) (s : nat -> R),
  (forall i, (i < 3)%nat -> (p i < 3)%nat /\ (s i = 1 \/ s i = -1)) /\
  (forall i j, (i < 3)%nat -> (j < 3)%nat -> p i = p j -> i = j) /\
  (forall i j, (i < 3)%nat -> (j < 3)%nat -> Q i j = if Nat.eqb j (p i) then s i else 0).
(** rotation about the third axis with cosine c and sine s *)
Definition rotz (c s : R) : mat := fun i j =>
  match i, j with
  | 0, 0 => c | 0, 1 => s | 1, 0 => - s | 1, 1 => c | 2, 2 => 1 | _, _ => 0
  end.
