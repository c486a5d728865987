(** Independent specification of what a Newton-Raphson iteration is. *)
From Verif Require Import Base.
From Verif Require Import SolverModel.

(** A residual norm that is a genuine number below one of the tolerances. *)
Definition converged (p : sparams) (nR nR0 : option R) : Prop :=
  exists r, nR = Some r /\
    (r < atol p \/ exists r0, nR0 = Some r0 /\ r0 <> 0 /\ r / r0 < rtol p).

Definition decreases (a b : option R) : Prop :=
  exists x y, a = Some x /\ b = Some y /\ x < y.

(** One Newton iteration from (x, d) to (x', d'): solve for the direction, then
    take the full step, or with line search the first of the step lengths
    1, 1/2, ..., 2^-9 that reduces the residual norm (the last one if none
    does). *)
Definition iterates {X D V} (s : nsys X D V) (p : sparams) (x : X) (d : D) (x' : X) (d' : D) : Prop :=
  exists dir, sys_solve s d = Some dir /\
    if linesearch p then
      exists j, (j <= 9)%nat /\ x' = sys_move s x ((/ 2) ^ j) dir /\ sys_RJ s x' = Some d' /\
        (forall k, (k < j)%nat -> exists dk, sys_RJ s (sys_move s x ((/ 2) ^ k) dir) = Some dk /\
                     ~ decreases (sys_norm s dk) (sys_norm s d)) /\
        (decreases (sys_norm s d') (sys_norm s d) \/ j = 9%nat)
    else x' = sys_move s x 1 dir /\ sys_RJ s x' = Some d'.

(** (x, d) is reached after k iterations, none of the earlier points having
    converged. *)
Inductive reached {X D V} (s : nsys X D V) (p : sparams) (d0 : D) : nat -> X -> D -> Prop :=
| reached_0 : sys_RJ s (sys_init s) = Some d0 -> reached s p d0 0 (sys_init s) d0
| reached_S : forall k x d x' d', reached s p d0 k x d ->
    ~ converged p (sys_norm s d) (sys_norm s d0) ->
    iterates s p x d x' d' -> reached s p d0 (S k) x' d'.
