(** What a uniaxial response is. *)
From Verif Require Import Base Diff.
From Verif Require Import SolverModel SubstepModel CreepModel NlModel NlSpec UniModel.
From Coq Require Import ZArith.

(** la.solve solves, and only nonsingular systems *)
Definition solve_ok (solve : nat -> mat -> vec -> option vec) : Prop := forall n J r v, solve n J r = Some v ->
  veq n (mv n J v) r /\ forall w, veq n (mv n J w) r -> veq n w v.
(** and every nonsingular one *)
Definition solve_total (solve : nat -> mat -> vec -> option vec) : Prop := forall n J r,
  (forall w, veq n (mv n J w) (fun _ => 0) -> veq n w (fun _ => 0)) -> exists v, solve n J r = Some v.
(** the five stresses other than the axial one, as a number *)
Definition transverse (s : vec) : R := sqrt (s 1%nat * s 1%nat + s 2%nat * s 2%nat + s 3%nat * s 3%nat + s 4%nat * s 4%nat + s 5%nat * s 5%nat).
(** a strain (e, x1, ..., x5) *)
Definition strain_of (e : R) (x : vec) (E : vec) : Prop := E 0%nat = e /\ forall i, (1 <= i < 6)%nat -> E i = x (i - 1)%nat.

(** the linear elastic model with stiffness C (SmallStrainElasticity): the stress is C e *)
Definition elastic_base (C : mat) (B : base) : Prop := forall l1 l0 s h u p, exists r, ba_update B l1 l0 s h u p = Some r /\
  veq 6 (pr_s r) (mv 6 C (ld_e l1)) /\ forall i j, (i < 6)%nat -> (j < 6)%nat -> pr_A r i j = C i j.
(** the slope of the model: along every curve of strains through E the stress moves with A *)
Definition exact_at (f : vec -> option pres) (E : vec) : Prop := forall (y : R -> vec) (r : R -> pres) w v,
  y w = E -> path 6 y w v -> locally w (fun z => f (y z) = Some (r z)) -> path 6 (fun z => pr_s (r z)) w (mv 6 (pr_A (r w)) v).

(** a history of the three dimensional model in which only the axial strain is imposed: every strain
    starts where the last one ended, all other stresses are below the tolerances, and the stress
    handed to the next update is the axial one *)
Inductive uniaxial_history (M : pymodel) (rt at_ : R) : vec -> R -> R -> vec -> vec -> R -> R -> Prop :=
| uh_start : forall T t, uniaxial_history M rt at_ (fun _ => 0) T t (fun _ => 0) (ba_init (pm_base M)) 0 0
| uh_step : forall E0 T0 t0 s0 h0 u0 p0 E1 T1 t1 r G rg,
    uniaxial_history M rt at_ E0 T0 t0 s0 h0 u0 p0 ->
    upd M E1 E0 T1 T0 t1 t0 (ss2sv (s0 0%nat)) h0 u0 p0 = Some r ->
    G 0%nat = E1 0%nat -> (forall i, (1 <= i < 6)%nat -> G i = E0 i) -> upd M G E0 T1 T0 t1 t0 (ss2sv (s0 0%nat)) h0 u0 p0 = Some rg ->
    transverse (pr_s r) <= rt * transverse (pr_s rg) \/ transverse (pr_s r) <= at_ ->
    uniaxial_history M rt at_ E1 T1 t1 (pr_s r) (pr_h r) (pr_u r) (pr_p r).
