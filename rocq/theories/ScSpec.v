(** What one step of the single crystal promises. *)
From Verif Require Import Base.
From Verif Require Import Diff.
From Verif Require Import NemlMathModel.
From Verif Require Import NemlMathSpec.
From Verif Require Import SolverModel.
From Verif Require Import RotModel.
From Verif Require Import TensorModel.
From Verif Require Import CpModel.
From Verif Require Import ScModel.

(** Increments of strain, vorticity and time. *)
Definition inc_d (k : call) : vec := fun i => k_d1 k i - k_d0 k i.
Definition inc_w (k : call) : vec := fun i => k_w1 k i - k_w0 k i.

(** How far (x, tail) is from solving the backward Euler equations of a step over the
    fraction f of the increment, from the stress k_s and the variables h, at temperature T.
    The elastic strain is S x; the inelastic spin at the start of the step (s0, h) is
    taken out of the vorticity, that at the end is added. *)
Definition euler_gap (c : crystal) (k : call) (f T : R) (s0 h : vec) (x : vec) : vec := fun i =>
  let m := c_im c T (k_q k) in
  let H := fun q => x (6 + q)%nat in
  let dt := f * (k_t1 k - k_t0 k) in
  if Nat.ltb i 6 then
    x i - k_s k i - mv 6 (flat 6 (c_C c T (k_q k))) (fun j =>
      f * inc_d k j - dt * i_dp m x H j -
      net (mv 6 (flat 6 (c_S c T (k_q k))) x) (fun l => f * inc_w k l + dt * (i_wp m x H l - i_wp m s0 h l)) j) i
  else x i - h (i - 6)%nat - dt * i_rate m x H (i - 6)%nat.

(** A step as one piece. *)
Definition whole_gap (c : crystal) (k : call) (x : vec) : vec := euler_gap c k 1 (k_T1 k) (k_s k) (k_h k) x.

(** The same call with another final strain and vorticity. *)
Definition with_dw (k : call) (d w : vec) : call :=
  {| k_d1 := d; k_d0 := k_d0 k; k_w1 := w; k_w0 := k_w0 k; k_T1 := k_T1 k; k_T0 := k_T0 k; k_t1 := k_t1 k; k_t0 := k_t0 k;
     k_s := k_s k; k_h := k_h k; k_q := k_q k; k_u := k_u k; k_p := k_p k |}.

(** Stress and variables together. *)
Definition state_vec (s h : vec) : vec := fun i => if Nat.ltb i 6 then s i else h (i - 6)%nat.

(** The work of the stress over a step by the trapezoidal rule. *)
Definition trapezoid (s1 s0 d1 d0 : vec) : R := rsum 6 (fun i => (s1 i + s0 i) / 2 * (d1 i - d0 i)).

(** An elastic crystal with cubic-like constants: C and S any matrices. *)
Definition elastic_crystal (C S : R -> quat -> vec) : crystal :=
  {| c_n := 0; c_C := C; c_S := S; c_im := fun _ _ => no_inelasticity |}.
