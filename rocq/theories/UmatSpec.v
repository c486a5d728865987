(** Symmetric tensors in the notations of Abaqus and NEML, and histories of direct update_sd calls. *)
From Verif Require Import Base Diff.
From Verif Require Import SubstepModel CreepModel UmatModel.

(** a second order tensor by its components *)
Definition tensor := nat -> nat -> R.
Definition symmetric (t : tensor) : Prop := forall i j, (i < 3)%nat -> (j < 3)%nat -> t i j = t j i.
(** Abaqus: 11, 22, 33, 12, 13, 23, shear strains doubled; NEML: 11, 22, 33, 23, 13, 12, shears times
    sqrt 2, stress and strain alike *)
Definition abq_stress (t : tensor) : vec := fun k => match k with
  | 0%nat => t 0%nat 0%nat | 1%nat => t 1%nat 1%nat | 2%nat => t 2%nat 2%nat
  | 3%nat => t 0%nat 1%nat | 4%nat => t 0%nat 2%nat | 5%nat => t 1%nat 2%nat | _ => 0 end.
Definition abq_strain (t : tensor) : vec := fun k => match k with
  | 0%nat => t 0%nat 0%nat | 1%nat => t 1%nat 1%nat | 2%nat => t 2%nat 2%nat
  | 3%nat => t 0%nat 1%nat + t 1%nat 0%nat | 4%nat => t 0%nat 2%nat + t 2%nat 0%nat | 5%nat => t 1%nat 2%nat + t 2%nat 1%nat | _ => 0 end.
Definition mandel (t : tensor) : vec := fun k => match k with
  | 0%nat => t 0%nat 0%nat | 1%nat => t 1%nat 1%nat | 2%nat => t 2%nat 2%nat
  | 3%nat => sqrt 2 * t 1%nat 2%nat | 4%nat => sqrt 2 * t 0%nat 2%nat | 5%nat => sqrt 2 * t 0%nat 1%nat | _ => 0 end.
Definition tplus (a b : tensor) : tensor := fun i j => a i j + b i j.
(** the power of a stress on a strain rate *)
Definition power (s e : tensor) : R := rsum 3 (fun i => rsum 3 (fun j => s i j * e i j)).

(** increments of strain tensor, time and temperature; what the user of update_sd keeps *)
Record tinc := { tn_e : tensor; tn_t : R; tn_T : R }.
Record nst := { nn_e : tensor; nn_t : R; nn_T : R; nn_s : tensor; nn_h : vec; nn_u : R; nn_p : R }.
Definition direct_start (B : base) (T t : R) : nst :=
  {| nn_e := fun _ _ => 0; nn_t := t; nn_T := T; nn_s := fun _ _ => 0; nn_h := ba_init B; nn_u := 0; nn_p := 0 |}.
(** one call of update_sd from state q; [A] is its tangent *)
Definition direct (B : base) (d : tinc) (q q' : nst) (A : mat) : Prop :=
  exists r, ba_update B {| ld_e := mandel (tplus (nn_e q) (tn_e d)); ld_T := nn_T q + tn_T d; ld_t := nn_t q + tn_t d |}
      {| ld_e := mandel (nn_e q); ld_T := nn_T q; ld_t := nn_t q |} (mandel (nn_s q)) (nn_h q) (nn_u q) (nn_p q) = Some r /\
    nn_e q' = tplus (nn_e q) (tn_e d) /\ nn_t q' = nn_t q + tn_t d /\ nn_T q' = nn_T q + tn_T d /\
    symmetric (nn_s q') /\ veq 6 (mandel (nn_s q')) (pr_s r) /\ nn_h q' = pr_h r /\ nn_u q' = pr_u r /\ nn_p q' = pr_p r /\ A = pr_A r.
Inductive direct_run (B : base) : list tinc -> nst -> nst -> Prop :=
| dr_nil : forall q, direct_run B [] q q
| dr_cons : forall d ds q q1 q2 A, direct B d q q1 A -> direct_run B ds q1 q2 -> direct_run B (d :: ds) q q2.
(** the model refuses the step *)
Definition direct_fails (B : base) (d : tinc) (q : nst) : Prop :=
  ba_update B {| ld_e := mandel (tplus (nn_e q) (tn_e d)); ld_T := nn_T q + tn_T d; ld_t := nn_t q + tn_t d |}
      {| ld_e := mandel (nn_e q); ld_T := nn_T q; ld_t := nn_t q |} (mandel (nn_s q)) (nn_h q) (nn_u q) (nn_p q) = None.

(** what Abaqus keeps for the point is what the user of update_sd keeps *)
Definition matches (q : apt) (n : nst) : Prop :=
  symmetric (nn_e n) /\ veq 6 (at_stran q) (abq_strain (nn_e n)) /\ at_time q = nn_t n /\ at_temp q = nn_T n /\
  veq 6 (ap_stress (at_p q)) (abq_stress (nn_s n)) /\ ap_statev (at_p q) = nn_h n /\
  ap_sse (at_p q) = nn_u n - nn_p n /\ ap_spd (at_p q) = nn_p n.
(** the increment as Abaqus hands it over *)
Definition abq_inc (d : tinc) : dinc := {| di_e := abq_strain (tn_e d); di_t := tn_t d; di_T := tn_T d |}.
