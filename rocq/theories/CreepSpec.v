(** What the creep laws and the creep models promise. *)
From Verif Require Import Base.
From Verif Require Import Diff.
From Verif Require Import NemlMathModel NemlMathSpec SolverModel SubstepModel PlastModel PlastSpec CreepModel.

(** dg_ds, dg_de are the partial derivatives of g (jointly, along any curve through P) *)
Definition srule_exact (P : R -> R -> R -> R -> Prop) (r : srule) : Prop :=
  forall t T (se ee : R -> R) u vs ve, is_derive se u vs -> is_derive ee u ve -> P (se u) (ee u) t T ->
  is_derive (fun v => sc_g r (se v) (ee v) t T) u (sc_gs r (se u) (ee u) t T * vs + sc_ge r (se u) (ee u) t T * ve).
(** dg_dt and dg_dT are the partial derivatives of g *)
Definition srule_time_exact (r : srule) : Prop := forall se ee t T, is_derive (fun x => sc_g r se ee x T) t (sc_gt r se ee t T).
Definition srule_temp_exact (P : R -> R -> R -> R -> Prop) (r : srule) : Prop := forall se ee t T, P se ee t T ->
  is_derive (fun x => sc_g r se ee t x) T (sc_gT r se ee t T).
(** the rate does not change with the strain below machine epsilon *)
Definition flat_below_eps (r : srule) : Prop := forall se e1 e2 t T, e1 < eps -> e2 < eps -> sc_g r se e1 t T = sc_g r se e2 t T.

(** a creep model's derivatives of the rate are right at every (stress, strain) in P *)
Definition creep_exact (P : R -> R -> vec -> vec -> Prop) (M : crmodel) : Prop := forall t T,
  is_jac2 6 6 6 (P t T) (fun s e => cr_f M s e t T) (fun s e => cr_fs M s e t T) (fun s e => cr_fe M s e t T).

(** region i of a mechanism map with cut points c_0 <= c_1 <= ...: c_{i-1} <= x < c_i *)
Definition in_region (cuts : list R) (i : nat) (x : R) : Prop :=
  (i <= length cuts)%nat /\
  (forall k, (k < i)%nat -> nth k cuts 0 <= x) /\ (forall k, (i <= k < length cuts)%nat -> x < nth k cuts 0).
Definition increasing (cuts : list R) : Prop := forall i j, (i < j < length cuts)%nat -> nth i cuts 0 < nth j cuts 0.

(** von Mises equivalent of a stress and equivalent of a strain *)
Definition mises (s : vec) : R := sqrt (3 / 2 * dot 6 (dev_vec s) (dev_vec s)).
Definition strain_eq (e : vec) : R := sqrt (2 / 3 * dot 6 e e).

(** a linear map undone on both sides *)
Definition two_inverse (n : nat) (K J : mat) : Prop := left_inverse n K J /\ left_inverse n J K.
(** the oracle for invert_mat never returns a wrong inverse *)
Definition inv_ok (inv : nat -> mat -> option mat) : Prop := forall n J K, inv n J = Some K -> two_inverse n K J.

(** *** creep + plasticity *)
(** the base model's success, stress, history and tangent do not depend on the energies it is given *)
Definition energy_free (B : base) : Prop := forall n p sn hn u0 p0 u1 p1,
  match ba_update B n p sn hn u0 p0, ba_update B n p sn hn u1 p1 with
  | Some a, Some b => pr_s a = pr_s b /\ pr_h a = pr_h b /\ pr_A a = pr_A b
  | None, None => True
  | _, _ => False
  end.
(** the base model's tangent at strain x is the derivative of its stress *)
Definition base_tangent_at (B : base) (next past : load) (sn hn : vec) (x : vec) : Prop :=
  forall (y : R -> vec) (r : R -> pres) u vy, y u = x -> path 6 y u vy ->
    locally u (fun w => ba_update B (with_e (y w) next) past sn hn 0 0 = Some (r w)) ->
    path 6 (fun w => pr_s (r w)) u (mv 6 (pr_A (r u)) vy).
(** the creep routine's tangent at stress s is the derivative of the new creep strain *)
Definition creep_tangent_at (cr : vec -> vec -> R -> R -> R -> R -> option (vec * mat)) (en : vec) (T1 T0 t1 t0 : R) (s : vec) : Prop :=
  forall (y : R -> vec) (r : R -> vec * mat) u vy, y u = s -> path 6 y u vy ->
    locally u (fun w => cr (y w) en T1 T0 t1 t0 = Some (r w)) ->
    path 6 (fun w => fst (r w)) u (mv 6 (snd (r u)) vy).
