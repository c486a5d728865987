(** Blocks and the C interface: what they promise. *)
From Verif Require Import Base.
From Verif Require Import NemlMathModel.
From Verif Require Import NemlMathSpec.
From Verif Require Import PolyModel.
From Verif Require Import BlockModel.
From Coq Require Import List Arith ZArith.
Import ListNotations.

(** Mandel form of a second order tensor and back, written out. *)
Definition mandel (T : nat -> nat -> R) (k : nat) : R :=
  match k with
  | 0%nat => T 0%nat 0%nat | 1%nat => T 1%nat 1%nat | 2%nat => T 2%nat 2%nat
  | 3%nat => (T 1%nat 2%nat + T 2%nat 1%nat) / sqrt 2 | 4%nat => (T 0%nat 2%nat + T 2%nat 0%nat) / sqrt 2 | 5%nat => (T 0%nat 1%nat + T 1%nat 0%nat) / sqrt 2
  | _ => 0
  end.
Definition tensor (v : vec) (i j : nat) : R :=
  match i, j with
  | 0%nat, 0%nat => v 0%nat | 1%nat, 1%nat => v 1%nat | 2%nat, 2%nat => v 2%nat
  | 1%nat, 2%nat | 2%nat, 1%nat => v 3%nat / sqrt 2 | 0%nat, 2%nat | 2%nat, 0%nat => v 4%nat / sqrt 2 | 0%nat, 1%nat | 1%nat, 0%nat => v 5%nat / sqrt 2
  | _, _ => 0
  end.
(** The i-th 3 x 3 tensor of an array. *)
Definition ten (a : vec) (i : nat) : nat -> nat -> R := fun p q => a (i * 9 + (p * 3 + q))%nat.
(** The i-th 3 x 3 x 3 x 3 tensor of an array. *)
Definition ten4 (a : vec) (i : nat) : nat -> nat -> nat -> nat -> R := fun p q r s => a (i * 81 + ((p * 3 + q) * 9 + (r * 3 + s)))%nat.
Definition cut6 (f : nat -> R) : vec := fun k => if Nat.ltb k 6 then f k else 0.

(** The point i of a block on its own. *)
Definition alone (nh : nat) (b : kin) (i : nat) : pin :=
  {| i_e1 := cut6 (mandel (ten (k_e1 b) i)); i_e0 := cut6 (mandel (ten (k_e0 b) i)); i_T1 := k_T1 b i; i_T0 := k_T0 b i; i_t1 := k_t1 b; i_t0 := k_t0 b;
     i_s0 := cut6 (mandel (ten (k_s0 b) i)); i_h0 := part nh i (k_h0 b); i_u0 := k_u0 b i; i_p0 := k_p0 b i |}.

(** A C caller: a list of calls, each of which either returned or threw. *)
Inductive ccall := Estrain (r : thrown unit) | Init (r : thrown unit) | Update (r : thrown unit).
Definition c_step (ier : Z) (c : ccall) : Z :=
  match c with Estrain r => c_elastic_strains r ier | Init r => c_init_store r ier | Update r => c_update_sd r ier end.
Definition c_threw (c : ccall) : Prop := match c with Estrain r | Init r | Update r => r = Throws end.
