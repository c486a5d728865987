(** What the plasticity models promise. *)
From Verif Require Import Base.
From Verif Require Import Diff.
From Verif Require Import SolverModel SubstepModel SurfModel RiModel PlastModel.

(** The contract of a general flow rule: the reported derivatives are those of the stress and
    history rates, jointly in stress, history and strain rate, at every state of P. *)
Definition gflow_exact (P : R -> vec -> vec -> vec -> Prop) (G : gflow) : Prop :=
  forall T Td s a e t vs va ve, path 6 s t vs -> path (gf_n G) a t va -> path 6 e t ve -> P T (s t) (a t) (e t) ->
  path 6 (fun u => gf_s G (s u) (a u) (e u) T Td) t
    (vadd (mv 6 (gf_ss G (s t) (a t) (e t) T Td) vs)
      (vadd (mv (gf_n G) (gf_sa G (s t) (a t) (e t) T Td) va) (mv 6 (gf_se G (s t) (a t) (e t) T Td) ve))) /\
  path (gf_n G) (fun u => gf_a G (s u) (a u) (e u) T Td) t
    (vadd (mv 6 (gf_as G (s t) (a t) (e t) T Td) vs)
      (vadd (mv (gf_n G) (gf_aa G (s t) (a t) (e t) T Td) va) (mv 6 (gf_ae G (s t) (a t) (e t) T Td) ve))).

(** K is a left inverse of the n x n matrix J *)
Definition left_inverse (n : nat) (K J : mat) : Prop :=
  forall i j, (i < n)%nat -> (j < n)%nat -> mm n K J i j = delta i j.

(** elastic strain energy density of a stress at constant temperature *)
Definition psi (S : mat) (s : vec) : R := dot 6 s (mv 6 S s) / 2.

(** the plastic strain carried by a state: total strain minus S(T) stress *)
Definition plastic_strain (Se : R -> mat) (l : load) (s : vec) : vec :=
  fun i => ld_e l i - mv 6 (Se (ld_T l)) s i.

Definition set_e (l : load) (e : vec) : load := {| ld_e := e; ld_T := ld_T l; ld_t := ld_t l |}.

(** the residual r left by a Newton solve is below a tolerance of the solver (absolute, or
    relative to the residual r0 at the starting point) *)
Definition within_tolerance (p : sparams) (n : nat) (r r0 : vec) : Prop :=
  norm2 n r < atol p \/ (norm2 n r0 <> 0 /\ norm2 n r / norm2 n r0 < rtol p).

(** Several substeps of the general integrator with the strain at the end of the increment
    moving along e(u): [gi_branch f st X fs XN] follows, from the fraction f of the increment on,
    the solution curves X, ..., XN of the substep equations through the fractions fs.  At u = t
    the curves pass through the states the code computes. *)
Inductive gi_branch (P : R -> vec -> vec -> vec -> Prop) (G : gflow) (step : stepper pst) (l0 l1 : load) (e : R -> vec) (t : R) :
    R -> pst -> (R -> vec) -> list R -> (R -> vec) -> Prop :=
| gb_end : forall f st X, gi_branch P G step l0 l1 e t f st X [] X
| gb_step : forall f f' st st' A E X X1 V1 fs XN,
    step (load_at l0 l1 f') (load_at l0 l1 f) st = Some (st', A, E) ->
    path (6 + gf_n G) X1 t V1 ->
    X1 t = ps_s st' ->
    P (ld_T (load_at l0 l1 f')) (X1 t) (hist_of (X1 t)) (gi_edot (load_at l0 l1 f') (load_at l0 l1 f)) ->
    (forall u, veq (6 + gf_n G)
       (gi_R G (load_at l0 (set_e l1 (e u)) f') (load_at l0 (set_e l1 (e u)) f)
             {| ps_s := X u; ps_h := hist_of (X u); ps_u := 0; ps_p := 0 |} (X1 u)) vzero) ->
    gi_branch P G step l0 l1 e t f' st' X1 fs XN ->
    gi_branch P G step l0 l1 e t f st X (f' :: fs) XN.
