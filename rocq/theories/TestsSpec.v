(** What the standard tests promise. *)
From Verif Require Import Base Diff.
From Verif Require Import SolverModel SubstepModel CreepModel NlModel NlSpec UniModel UniSpec DrvModel DrvSpec TestsModel.
From Coq Require Import ZArith String List.
Import ListNotations.

(** from d to d' with a strain increment [inc] and time increment [dtm] along the unit vector u, the
    stress moving along it, up to errors e *)
Definition moved (u : vec) (inc dtm e ee : R) (d d' : drv) : Prop :=
  topr (dv_t d') = topr (dv_t d) + dtm /\
  Rabs (dot 6 (fun i => top (dv_strain d') i - top (dv_strain d) i) u - inc) <= ee /\
  exists a, norm2 6 (fun i => top (dv_stress d') i - top (dv_stress d) i - a * u i) <= e.
(** the test's own lists follow the driver *)
Definition synced (sdir : vec) (st : tst) : Prop :=
  length (ts_e st) = length (dv_strain (ts_d st)) /\ length (ts_s st) = length (dv_strain (ts_d st)) /\ length (ts_t st) = length (dv_strain (ts_d st)) /\
  topr (ts_t st) = topr (dv_t (ts_d st)) /\ topr (ts_e st) = along (dv_strain (ts_d st)) sdir /\ topr (ts_s st) = along (dv_stress (ts_d st)) sdir.

(** the k-th of the n values added to a list (newest first), counted from 1 *)
Definition kth (n k : nat) (l : list R) : R := nth (n - k) l 0.
(** consecutive values of a list, newest first, do not decrease with time *)
Inductive nondecreasing : list R -> Prop :=
| nd_one : forall x, nondecreasing [x]
| nd_more : forall x y l, y <= x -> nondecreasing (y :: l) -> nondecreasing (x :: y :: l).
(** the entries of a ramp of n steps: strain and time grow in equal steps, up to the errors *)
Definition ramp_entries (P : dparams) (sdir : vec) (erate einc : R) (n : nat) (st st' : tst) : Prop := exists le lt ls,
  ts_e st' = le ++ ts_e st /\ length le = n /\ ts_t st' = lt ++ ts_t st /\ length lt = n /\ ts_s st' = ls ++ ts_s st /\ length ls = n /\
  forall k, (1 <= k <= n)%nat -> exists e, errors P k e /\
    Rabs (kth n k le - topr (ts_e st) - norm2 6 sdir * (INR k * einc)) <= norm2 6 sdir * (e * Rabs (einc / erate)) /\
    kth n k lt = topr (ts_t st) + INR k * (einc / erate).
(** amplitude and duration of a cycle *)
Definition ampl (c : cparams) : R := Rabs (cp_emax c * cp_R c - cp_emax c).
Definition period (c : cparams) : R := cp_hold0 c + cp_hold1 c + 2 * (ampl c / cp_erate c).
Definition cycle_ok (c : cparams) : Prop := (0 < cp_nsteps c)%nat /\ (0 < cp_nhold c)%nat /\ 0 <= cp_hold0 c /\ 0 <= cp_hold1 c /\ cp_emax c * cp_R c <> cp_emax c /\ 0 < norm2 6 (cp_sdir c).
Definition greatest (m : R) (l : list R) : Prop := In m l /\ forall x, In x l -> x <= m.
Definition least (m : R) (l : list R) : Prop := In m l /\ forall x, In x l -> m <= x.
(** the summary of a cycle belongs to a stretch of the recorded stresses *)
Definition summary (stress : list R) (k : cyc) : Prop := exists a ls b, stress = a ++ ls ++ b /\ greatest (cy_max k) ls /\ least (cy_min k) ls /\ cy_mean k = (cy_max k + cy_min k) / 2.
