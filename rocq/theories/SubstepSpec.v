(** Independent specification of adaptive substepping. *)
From Verif Require Import Base.
From Verif Require Import SolverModel SubstepModel.

(** The point a fraction f of the way from the start to the end of the step. *)
Definition on_path (l0 l1 : load) (f : R) (l : load) : Prop :=
  (forall i, ld_e l i = (1 - f) * ld_e l0 i + f * ld_e l1 i) /\
  ld_T l = (1 - f) * ld_T l0 + f * ld_T l1 /\ ld_t l = (1 - f) * ld_t l0 + f * ld_t l1.

(** [chain fs st A ...]: updating through the increasing fractions fs, each
    update starting where the previous one ended in load and in state, leads
    from (f, past, st, A) to (st', A') at fraction 1; every piece is one of the
    lengths 1, 1/2, 1/4, ..., (1/2)^max_divide. *)
Inductive chain {St} (np : nat) (step : stepper St) (max_divide : nat) (l0 l1 : load) :
  R -> load -> St -> mat -> list R -> St -> mat -> Prop :=
| chain_end : forall past st A, on_path l0 l1 1 past ->
    chain np step max_divide l0 l1 1 past st A [] st A
| chain_step : forall f f' past next st st' A A_inc E_inc fs stN AN k,
    on_path l0 l1 f past -> on_path l0 l1 f' next ->
    f' = f + (/ 2) ^ k -> (k <= max_divide)%nat -> f' <= 1 ->
    step next past st = Some (st', A_inc, E_inc) ->
    chain np step max_divide l0 l1 f' next st'
      (mm np A_inc (fun i j => A i j + E_inc i j * (f' - f))) fs stN AN ->
    chain np step max_divide l0 l1 f past st A (f' :: fs) stN AN.

(** The same load (strains compared as functions of the component). *)
Definition same_load (a b : load) : Prop :=
  (forall i, ld_e a i = ld_e b i) /\ ld_T a = ld_T b /\ ld_t a = ld_t b.
