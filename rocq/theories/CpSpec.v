(** What an inelastic model and a kinematic model promise. *)
From Verif Require Import Base.
From Verif Require Import Diff.
From Verif Require Import NemlMathModel.
From Verif Require Import NemlMathSpec.
From Verif Require Import RotModel.
From Verif Require Import SlipModel.
From Verif Require Import CpModel.
From Coq Require Import List.

(** All reported derivatives of an inelastic model are the derivatives. *)
Definition inelastic_exact (m : imodel) (P : vec -> vec -> Prop) : Prop :=
  is_jac2 6 6 (i_n m) P (i_dp m) (i_dp_s m) (i_dp_h m) /\
  is_jac2 3 6 (i_n m) P (i_wp m) (i_wp_s m) (i_wp_h m) /\
  is_jac2 (i_n m) 6 (i_n m) P (i_rate m) (i_rate_s m) (i_rate_h m).

(** Products of full 3x3 matrices. *)
Definition mat3 (A : vec) : mat := fun i j => A (3 * i + j)%nat.
Definition commutator (A B : mat) : mat := fun i j => mm 3 A B i j - mm 3 B A i j.

(** The lattice spin of the documentation (doc/sphinx/crystal_plasticity.rst):
    W - Wp - (e Dp - Dp e), as full tensors. *)
Definition documented_spin (w wp e dp : vec) : mat := fun i j =>
  mat3 (uskew w) i j - mat3 (uskew wp) i j - commutator (mat3 (usym e)) (mat3 (usym dp)) i j.

(** One model with variables at most, and the others without. *)
Definition one_history (m : nat) (ms : nat -> imodel) : Prop :=
  (length (cb_fulls m ms) <= 1)%nat /\ forall k, (k < m)%nat -> i_full (ms k) = false -> i_n (ms k) = 0%nat.

(** A model m' is m turned by q. *)
Definition turned_model (q : quat) (m m' : imodel) : Prop :=
  i_n m' = i_n m /\ forall s h,
  veq 6 (i_dp m' (apply_sym q s) h) (apply_sym q (i_dp m s h)) /\
  veq 3 (i_wp m' (apply_sym q s) h) (apply_skew q (i_wp m s h)) /\
  veq (i_n m) (i_rate m' (apply_sym q s) h) (i_rate m s h).

(** A hardening law that does not look at the directions of the systems. *)
Definition frame_blind (l : hlaw) : Prop := forall L L',
  l_n L = l_n L' -> l_off L = l_off L' -> l_loc L = l_loc L' -> l_twin L = l_twin L' -> l_b L = l_b L' ->
  h_tau l L = h_tau l L' /\ (forall sl sl' h k, (forall p, sl p = sl' p) -> h_rate l L sl h k = h_rate l L' sl' h k).

Definition turned_lattice (q : quat) (L L' : slat) : Prop :=
  l_n L = l_n L' /\ l_off L = l_off L' /\ l_loc L = l_loc L' /\ l_twin L = l_twin L' /\ l_b L = l_b L' /\
  (forall p, veq 6 (l_M L' p) (apply_sym q (l_M L p))) /\ (forall p, veq 3 (l_N L' p) (apply_skew q (l_N L p))).
