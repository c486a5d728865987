(** Model of neml/uniaxial.py: the uniaxial wrapper around a three dimensional model. *)
From Verif Require Import Base.
From Verif Require Import SolverModel SubstepModel CreepModel NlModel.
From Coq Require Import ZArith.

(** What the Python code uses of a material model: update_sd, init_store ([pm_base]), alpha,
    elastic_strains(s, T, h) and get_damage(h). *)
(** neml/uniaxial.py:37-117: the methods of the model that are called there *)
Record pymodel := { pm_base : base; pm_alpha : R -> R; pm_estrain : vec -> R -> vec -> vec; pm_damage : vec -> R }.
(** update_sd(e_np1, e_n, T_np1, T_n, t_np1, t_n, s_n, h_n, u_n, p_n); None: it raised *)
(** neml/uniaxial.py:71-117: the call of update_sd *)
Definition upd (M : pymodel) (e1 e0 : vec) (T1 T0 t1 t0 : R) (s0 h0 : vec) (u0 p0 : R) : option pres :=
  ba_update (pm_base M) {| ld_e := e1; ld_T := T1; ld_t := t1 |} {| ld_e := e0; ld_T := T0; ld_t := t0 |} s0 h0 u0 p0.

(** neml/uniaxial.py:119-128 ss2sv *)
Definition ss2sv (s : R) : vec := fun i => if Nat.eqb i 0 then s else 0.
(** neml/uniaxial.py:130-141 es2ev *)
Definition es2ev (e : R) (h : vec) : vec := fun i => if Nat.eqb i 0 then e else if Nat.ltb i 6 then h (i - 1)%nat else 0.
(** neml/uniaxial.py:37-41 init_store: five zeros, then the store of the model *)
Definition uni_init (M : pymodel) : vec := fun i => if Nat.ltb i 5 then 0 else ba_init (pm_base M) (i - 5)%nat.
(** neml/uniaxial.py:64-69 elastic_strains: the whole of h goes to the model *)
Definition uni_estrain (M : pymodel) (s T : R) (h : vec) : R := pm_estrain M (ss2sv s) T h 0%nat.

(** v[1:], A[1:,:][:,1:], A[1:,0] and A[0,1:] *)
(** neml/uniaxial.py:90-117: slices *)
Definition vtl (v : vec) : vec := fun i => v (S i).
(** neml/uniaxial.py:90-117: slices *)
Definition A22 (A : mat) : mat := fun i j => A (S i) (S j).
(** neml/uniaxial.py:90-117: slices *)
Definition A21 (A : mat) : vec := fun i => A (S i) 0%nat.
(** neml/uniaxial.py:90-117: slices *)
Definition A12 (A : mat) : vec := fun j => A 0%nat (S j).
(** neml/uniaxial.py:71-117: the tuple returned *)
Record ures := { ur_s : R; ur_h : vec; ur_A : R; ur_u : R; ur_p : R }.

(** the residual equations, 90-98.  [solve] is numpy's la.solve. *)
Definition uni_sys (solve : nat -> mat -> vec -> option vec) (M : pymodel) (e1 e0 T1 T0 t1 t0 s0 : R) (h0 : vec) (u0 p0 : R) :=
  vec_sys 5 h0 (fun x => match upd M (es2ev e1 x) (es2ev e0 h0) T1 T0 t1 t0 (ss2sv s0) (fun i => h0 (5 + i)%nat) u0 p0 with
    | None => None | Some r => Some (vtl (pr_s r), A22 (pr_A r)) end) (solve 5%nat).
(** neml/uniaxial.py:71-117 update *)
Definition uni_update (solve : nat -> mat -> vec -> option vec) (M : pymodel) (rt at_ : R) (miter : Z)
    (e1 e0 T1 T0 t1 t0 s0 : R) (h0 : vec) (u0 p0 : R) : py ures :=
  match py_newton (uni_sys solve M e1 e0 T1 T0 t1 t0 s0 h0 u0 p0) (vlin 5) rt at_ miter LNone true with
  | Raise e => Raise e
  | Ret (ef, _, _) =>
    match upd M (es2ev e1 ef) (es2ev e0 h0) T1 T0 t1 t0 (ss2sv s0) (fun i => h0 (5 + i)%nat) u0 p0 with
    | None => Raise ModelError
    | Some r =>
      match solve 5%nat (A22 (pr_A r)) (A21 (pr_A r)) with
      | None => Raise LinAlgError
      | Some sv => Ret {| ur_s := pr_s r 0%nat; ur_h := fun i => if Nat.ltb i 5 then ef i else pr_h r (i - 5)%nat;
          ur_A := pr_A r 0%nat 0%nat - dot 5 (A12 (pr_A r)) sv; ur_u := pr_u r; ur_p := pr_p r |}
      end
    end
  end.

(** a history of calls: each starts from the strain, stress and store of the one before *)
(** a caller of neml/uniaxial.py:71-117 that passes on what the last call returned, as neml/drivers.py does *)
Record ustep := { us_e : R; us_T : R; us_t : R }.
(** a caller of neml/uniaxial.py:71-117 that passes on what the last call returned, as neml/drivers.py does *)
Record ustate := { uu_e : R; uu_T : R; uu_t : R; uu_s : R; uu_h : vec; uu_u : R; uu_p : R }.
(** one such call of neml/uniaxial.py:71-117 *)
Definition uni_step solve M rt at_ miter (q : ustate) (l : ustep) : py ustate :=
  match uni_update solve M rt at_ miter (us_e l) (uu_e q) (us_T l) (uu_T q) (us_t l) (uu_t q) (uu_s q) (uu_h q) (uu_u q) (uu_p q) with
  | Raise e => Raise e
  | Ret r => Ret {| uu_e := us_e l; uu_T := us_T l; uu_t := us_t l; uu_s := ur_s r; uu_h := ur_h r; uu_u := ur_u r; uu_p := ur_p r |}
  end.
(** the first state, with neml/uniaxial.py:37-41 *)
Definition uni_start (M : pymodel) (T t : R) : ustate := {| uu_e := 0; uu_T := T; uu_t := t; uu_s := 0; uu_h := uni_init M; uu_u := 0; uu_p := 0 |}.
(** states reached by such calls; no code of its own *)
Inductive uni_reach solve M rt at_ miter : ustate -> Prop :=
| ur_start : forall T t, uni_reach solve M rt at_ miter (uni_start M T t)
| ur_step : forall q l q', uni_reach solve M rt at_ miter q -> uni_step solve M rt at_ miter q l = Ret q' -> uni_reach solve M rt at_ miter q'.
