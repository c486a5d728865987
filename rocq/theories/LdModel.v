(** The large-strain update built on a small-strain model: NEMLModel_sd::update_ld_inc
    and calc_tangent_ of src/models.cxx. *)
From Coq Require Import List.
From Verif Require Import Base.
Import ListNotations.
From Verif Require Import NemlMathModel.

(** include/math/nemlmath.h:33 *)
Definition idsym : vec := vlist [1; 0; 0; 0; 0; 0; 0; 0; 0; 0; /2; 0; /2; 0; 0; 0; 0; 0; 0; 0; /2; 0; 0; 0; /2; 0; 0; 0; /2; 0; /2; 0; 0; 0; 0; 0; 0; 0; 0; 0; 1; 0; 0; 0; 0; 0; 0; 0; 0; 0; /2; 0; /2; 0; 0; 0; /2; 0; 0; 0; /2; 0; 0; 0; 0; 0; 0; 0; /2; 0; /2; 0; 0; 0; 0; 0; 0; 0; 0; 0; 1].
(** include/math/nemlmath.h:34 *)
Definition idskew : vec := vlist [0; 0; 0; 0; 0; 0; 0; 0; 0; 0; /2; 0; -/2; 0; 0; 0; 0; 0; 0; 0; /2; 0; 0; 0; -/2; 0; 0; 0; -/2; 0; /2; 0; 0; 0; 0; 0; 0; 0; 0; 0; 0; 0; 0; 0; 0; 0; 0; 0; 0; 0; /2; 0; -/2; 0; 0; 0; -/2; 0; 0; 0; /2; 0; 0; 0; 0; 0; 0; 0; -/2; 0; /2; 0; 0; 0; 0; 0; 0; 0; 0; 0; 0].

(** mat_mat(9,9,9,A,B,C): src/math/nemlmath.cxx *)
(** src/math/nemlmath.cxx:894-898 (mat_mat) *)
Definition mat_mat9 (A B : vec) : vec := fun p =>
  rsum 9 (fun k => A (9 * (p / 9) + k)%nat * B (9 * k + p mod 9)%nat).
(** src/models.cxx:195-230; Jinv is what invert_mat left in J.  Returns A (36) and B (18). *)
Definition calc_tangent (Jinv C S : vec) : vec * vec :=
  let O := truesdell_tangent_outer S in
  let dL := mat_mat9 (mandel2full C) idsym in
  let T1 := fun i => dL i + O i in
  let L := mat_mat9 Jinv T1 in
  (full2mandel (mat_mat9 L idsym), fun i => full2skew (mat_mat9 L idskew) i * 2).
(** what LAPACK's dgetrf/dgetri compute when they succeed: Jinv is the inverse of J *)
(** src/math/nemlmath.cxx:872-892 (invert_mat): when LAPACK succeeds *)
Definition inverse9 (Jinv J : vec) : Prop := forall i j, (i < 9)%nat -> (j < 9)%nat ->
  rsum 9 (fun k => Jinv (9 * i + k)%nat * J (9 * k + j)%nat) = delta i j /\
  rsum 9 (fun k => J (9 * i + k)%nat * Jinv (9 * k + j)%nat) = delta i j.
(** src/models.cxx:107-139.  The deformation increments, with D zeroed for the Jaumann rate;
    the small strain update gives the stresses h_np1, h_n kept in the first six history
    entries and its tangent base_A; x is the solution of the 9x9 system found by
    truesdell_update_sym. *)
Definition ld_D (truesdell : bool) (d_np1 d_n : vec) : vec := if truesdell then vsub d_np1 d_n else vzero.
(** src/models.cxx:106-139 *)
Definition ld_W (w_np1 w_n : vec) : vec := vsub w_np1 w_n.
(** src/models.cxx:106-139 *)
Definition update_ld_inc (truesdell : bool) (d_np1 d_n w_np1 w_n s_n small_np1 small_n base_A x Jinv s_np1 A B : vec) : Prop :=
  truesdell_system (ld_D truesdell d_np1 d_n) (ld_W w_np1 w_n) s_n (vsub small_np1 small_n) x /\
  s_np1 = truesdell_update_sym x s_n /\
  inverse9 Jinv (truesdell_mat (ld_D truesdell d_np1 d_n) (ld_W w_np1 w_n)) /\
  (A, B) = calc_tangent Jinv base_A s_np1.
