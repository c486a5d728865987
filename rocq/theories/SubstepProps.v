(** C06, C07: adaptive substepping. *)
From Verif Require Import Base.
From Verif Require Import Diff SolverModel SubstepModel SubstepSpec SubstepProofs.

(** C06: a successful substepped update consists of consecutive successful
    updates that start at the old state, each begin where the previous one
    ended, and together cover the step exactly once. *)
Theorem C06_substeps_cover_step : forall St np (step : stepper St) md force l0 l1 st stN AN c,
  substep_update np step md force l0 l1 st = Ok (stN, AN, c) ->
  exists fs, chain np step md l0 l1 0 l0 st (fun _ _ => 0) fs stN AN.
Proof. exact @substep_covers. Qed.
Print Assumptions C06_substeps_cover_step.

(** The end of such a chain is the requested load, not an approximation. *)
Theorem C06_end_is_requested_load : forall l0 l1 l, on_path l0 l1 1 l -> same_load l l1.
Proof. exact on_path_1. Qed.
Print Assumptions C06_end_is_requested_load.

(** No substepping is done when the full step works. *)
Theorem C06_full_step_when_possible : forall St np (step : stepper St) md l0 l1 st st' A_inc E_inc,
  step (load_at l0 l1 1) l0 st = Some (st', A_inc, E_inc) ->
  exists AN, substep_update np step md false l0 l1 st = Ok (st', AN, 1%nat) /\
    forall i j, AN i j = mm np A_inc E_inc i j.
Proof. exact @substep_single. Qed.
Print Assumptions C06_full_step_when_possible.

(** C07: substepping always stops; it makes at most 2^max_divide + max_divide
    attempts. *)
Theorem C07_substep_terminates : forall St np (step : stepper St) md force l0 l1 st,
  substep_update np step md force l0 l1 st <> Throw OutOfFuel.
Proof. exact @substep_terminates. Qed.
Print Assumptions C07_substep_terminates.

Theorem C07_substep_bounded_work : forall St np (step : stepper St) md force l0 l1 st stN AN c,
  substep_update np step md force l0 l1 st = Ok (stN, AN, c) -> (c <= 2 ^ md + md)%nat.
Proof. exact @substep_work. Qed.
Print Assumptions C07_substep_bounded_work.

(** A stepper that refuses time increments above 0.6 and records the times it
    visits: the step is split in two. *)
Definition ex_step : stepper (list R) := fun next past st =>
  if Rlt_dec (6 / 10) (ld_t next - ld_t past) then None
  else Some (ld_t next :: st, fun _ _ => 0, fun _ _ => 0).
Definition ex_load (t : R) : load := {| ld_e := fun _ => 0; ld_T := 0; ld_t := t |}.
Example C06_example : exists a b A, substep_update 1 ex_step 2 false (ex_load 0) (ex_load 1) [] = Ok ([b; a], A, 3%nat)
  /\ a = / 2 /\ b = 1.
Proof.
  unfold substep_update, ex_step, ex_load. cbn [Nat.pow Nat.mul Nat.add substep_loop Nat.ltb Nat.leb load_at ld_t ld_e ld_T].
  destruct (Rlt_dec (6 / 10) (0 + INR 4 / INR 4 * (1 - 0) - 0)) as [_|H]; [|exfalso; apply H; simpl; lra].
  cbn [Nat.div Nat.divmod fst Nat.sub substep_loop Nat.ltb Nat.leb andb load_at ld_t ld_e ld_T].
  match goal with |- context [Rlt_dec ?a ?b] => destruct (Rlt_dec a b) as [H|_]; [exfalso; simpl in H; lra|] end.
  cbn [Nat.div Nat.divmod fst Nat.sub Nat.add substep_loop Nat.ltb Nat.leb andb load_at ld_t ld_e ld_T].
  match goal with |- context [Rlt_dec ?a ?b] => destruct (Rlt_dec a b) as [H|_]; [exfalso; simpl in H; lra|] end.
  cbn [Nat.div Nat.divmod fst Nat.sub Nat.add substep_loop Nat.ltb Nat.leb andb load_at ld_t ld_e ld_T].
  eexists _, _, _. split; [reflexivity|]. simpl. lra.
Qed.
