(** Model of the driver for large deformations: neml/drivers.py:1578-1641 def_grad_driver, sym, skew.
    3 by 3 matrices are functions of two indices below 3; la.inv raises for a singular matrix and is
    otherwise the inverse (here by cofactors). *)
From Coq Require Import List.
From Verif Require Import Base.
From Coq Require Import List.
Import ListNotations.
Open Scope R_scope.

(** what the driver asks of a model: init_store and update_ld_inc (whose two tangents it drops); None:
    an exception.  Arguments in the order of the call, neml/drivers.py:1610-1614:
    d_np1 d_n w_np1 w_n T_np1 T_n t_np1 t_n s_n h_n u_n p_n *)
Record ldmodel := { lm_store : vec; lm_update : vec -> vec -> vec -> vec -> R -> R -> R -> R -> vec -> vec -> R -> R -> option (vec * vec * R * R) }.

(** numpy.linalg.inv, called in neml/drivers.py:1605-1623; no NEML code *)
Definition det (A : mat) : R :=
  A 0%nat 0%nat * (A 1%nat 1%nat * A 2%nat 2%nat - A 1%nat 2%nat * A 2%nat 1%nat)
  - A 0%nat 1%nat * (A 1%nat 0%nat * A 2%nat 2%nat - A 1%nat 2%nat * A 2%nat 0%nat)
  + A 0%nat 2%nat * (A 1%nat 0%nat * A 2%nat 1%nat - A 1%nat 1%nat * A 2%nat 0%nat).
(** numpy.linalg.inv, called in neml/drivers.py:1605-1623; no NEML code *)
Definition nx (i : nat) : nat := match i with 0 => 1 | 1 => 2 | _ => 0 end.
(** numpy.linalg.inv of a 3 by 3 matrix *)
(** numpy.linalg.inv, called in neml/drivers.py:1605-1623; no NEML code *)
Definition la_inv (A : mat) : option mat :=
  if Req_EM_T (det A) 0 then None
  else Some (fun i j => (A (nx j) (nx i) * A (nx (nx j)) (nx (nx i)) - A (nx j) (nx (nx i)) * A (nx (nx j)) (nx i)) / det A).
(** 1630-1635 *)
Definition py_sym (A : mat) : vec := vlist [A 0%nat 0%nat; A 1%nat 1%nat; A 2%nat 2%nat; sqrt 2 * A 1%nat 2%nat; sqrt 2 * A 0%nat 2%nat; sqrt 2 * A 0%nat 1%nat].
(** 1637-1641 *)
Definition py_skew (A : mat) : vec := vlist [- A 1%nat 2%nat; A 0%nat 2%nat; - A 0%nat 1%nat].

(** the lists of 1592-1599 and 1616-1623, oldest entry first, and the variable t *)
Record dg := { dg_now : R; dg_t : list R; dg_s : list vec; dg_F : list mat; dg_D : list vec; dg_W : list vec; dg_h : list vec; dg_u : list R; dg_p : list R }.
(** 1592-1601 *)
Definition dg_start (M : ldmodel) (F : R -> mat) : dg :=
  {| dg_now := 0; dg_t := [0]; dg_s := [vzero]; dg_F := [F 0]; dg_D := [vzero]; dg_W := [vzero]; dg_h := [lm_store M]; dg_u := [0]; dg_p := [0] |}.
(** a filler for the inverse after an exception, in neml/drivers.py:1605-1623 *)
Definition matzero : mat := fun _ _ => 0.
(** 1605-1623 one pass of the loop *)
Definition dg_pass (M : ldmodel) (F : R -> mat) (dt T : R) (x : dg) : option dg :=
  let t := dg_now x + dt in
  let F1 := F t in
  match la_inv F1 with
  | None => None
  | Some V =>
      let L := mm 3 (fun i j => F1 i j - last (dg_F x) matzero i j) V in
      let dD := py_sym (fun i j => / 2 * (L i j + L j i)) in
      let dW := py_skew (fun i j => / 2 * (L i j - L j i)) in
      match lm_update M (vadd (last (dg_D x) vzero) dD) (last (dg_D x) vzero) (vadd (last (dg_W x) vzero) dW) (last (dg_W x) vzero)
              T T t (last (dg_t x) 0) (last (dg_s x) vzero) (last (dg_h x) vzero) (last (dg_u x) 0) (last (dg_p x) 0) with
      | None => None
      | Some (s, h, u, p) =>
          Some {| dg_now := t; dg_t := dg_t x ++ [t]; dg_s := dg_s x ++ [s]; dg_F := dg_F x ++ [F1];
                  dg_D := dg_D x ++ [vadd (last (dg_D x) vzero) dD]; dg_W := dg_W x ++ [vadd (last (dg_W x) vzero) dW];
                  dg_h := dg_h x ++ [h]; dg_u := dg_u x ++ [u]; dg_p := dg_p x ++ [p] |}
      end
  end.
(** 1604 the loop: n passes, the loop variable is not used *)
Fixpoint dg_loop (M : ldmodel) (F : R -> mat) (dt T : R) (n : nat) : option dg :=
  match n with
  | O => Some (dg_start M F)
  | S m => match dg_loop M F dt T m with Some x => dg_pass M F dt T x | None => None end
  end.
(** 1578-1628; tmax / 0 raises *)
Definition def_grad_driver (M : ldmodel) (F : R -> mat) (tmax : R) (nsteps : nat) (T : R) : option dg :=
  match nsteps with O => None | _ => dg_loop M F (tmax / INR nsteps) T nsteps end.
