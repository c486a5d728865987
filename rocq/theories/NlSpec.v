(** What the Python solvers promise. *)
From Verif Require Import Base.
From Verif Require Import SolverModel NlModel.
From Coq Require Import ZArith.

(** the residual is a number, not above one of the tolerances *)
Definition py_converged (rt at_ : R) (nR nR0 : option R) : Prop :=
  exists r r0, nR = Some r /\ nR0 = Some r0 /\ (r <= rt * r0 \/ r <= at_).
(** the residuals of the system are numbers *)
Definition no_nan {X D V} (s : nsys X D V) : Prop := forall x d, sys_RJ s x = Some d -> exists r, sys_norm s d = Some r.

(** x, with its residual d, is the k-th iterate: each moves from the one before along the direction
    of that point, none of the earlier ones has converged *)
Inductive py_iterate {X D V} (s : nsys X D V) (dir : D -> option V) (len : X -> D -> V -> py R) (rt at_ : R) (d0 : D) : nat -> X -> D -> Prop :=
| pi_start : sys_RJ s (sys_init s) = Some d0 -> py_iterate s dir len rt at_ d0 0 (sys_init s) d0
| pi_move : forall k x d v f d', py_iterate s dir len rt at_ d0 k x d -> ~ py_converged rt at_ (sys_norm s d) (sys_norm s d0) ->
    dir d = Some v -> len x d v = Ret f -> sys_RJ s (sys_move s x f v) = Some d' ->
    py_iterate s dir len rt at_ d0 (S k) (sys_move s x f v) d'.

(** alpha is the first of 1, tau, tau^2, ... whose residual is not above that of the damped linear
    model *)
Definition first_acceptable {X D V} (s : nsys X D V) (lin : D -> V -> R -> option R) (tau c : R) (x : X) (d : D) (v : V) (alpha : R) : Prop :=
  exists k, alpha = tau ^ k /\
    (forall j, (j < k)%nat -> exists d', sys_RJ s (sys_move s x (tau ^ j) v) = Some d' /\ fgt (sys_norm s d') (lin d v (c * tau ^ j)) = true) /\
    exists d', sys_RJ s (sys_move s x alpha v) = Some d' /\ fgt (sys_norm s d') (lin d v (c * alpha)) = false.
(** the linear solve is exact *)
Definition exact_solve (n : nat) (solve : mat -> vec -> option vec) : Prop := forall J r v, solve J r = Some v -> veq n (mv n J v) r.
