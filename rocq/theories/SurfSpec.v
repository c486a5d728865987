(** What it means for a yield surface's reported derivatives to be right, and the textbook
    form of the yield functions. *)
From Verif Require Import Base.
From Verif Require Import Diff.
From Verif Require Import NemlMathModel.
From Verif Require Import NemlMathSpec.
From Verif Require Import SurfModel.

(** At every (stress, history) pair of P and every temperature: the two gradients are the
    joint gradient of f, and the four second derivative blocks are the joint Jacobians of
    the two gradients. *)
Definition surface_exact (P : R -> vec -> vec -> Prop) (Y : surface) : Prop := forall T,
  is_grad2 6 (ys_n Y) (P T) (fun s q => ys_f Y s q T) (fun s q => ys_ds Y s q T) (fun s q => ys_dq Y s q T) /\
  is_jac2 6 6 (ys_n Y) (P T) (fun s q => ys_ds Y s q T) (fun s q => ys_dss Y s q T) (fun s q => ys_dsq Y s q T) /\
  is_jac2 (ys_n Y) 6 (ys_n Y) (P T) (fun s q => ys_dq Y s q T) (fun s q => ys_dqs Y s q T) (fun s q => ys_dqq Y s q T).

(** the backstress kept in entries 1..6 of the history, and the relative stress *)
Definition backstress (q : vec) : vec := fun i => q (S i).
Definition relative_stress (s q : vec) : vec := fun i => dev_vec s i + backstress q i.
(** deviatoric backstress and a relative stress of norm above machine epsilon *)
Definition kin_domain (T : R) (s q : vec) : Prop :=
  tr2 (usym (backstress q)) = 0 /\ eps < norm2 6 (relative_stress s q).
Definition iso_domain (T : R) (s q : vec) : Prop := eps < norm2 6 (dev_vec s).
(** hydrostatic stress (a scalar pressure times the identity) added to s *)
Definition add_pressure (p : R) (s : vec) : vec := fun i => if Nat.ltb i 3 then s i + p else s i.
