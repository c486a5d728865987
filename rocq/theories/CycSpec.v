(** What the remaining standard tests promise. *)
From Verif Require Import Base Diff.
From Verif Require Import SolverModel SubstepModel CreepModel NlModel NlSpec UniModel UniSpec DrvModel DrvSpec TestsModel TestsSpec CycModel.
From Coq Require Import ZArith String List.
Import ListNotations.

Fixpoint total (l : list R) : R := match l with [] => 0 | x :: l => x + total l end.
(** from d to d' over a time with component i on the follow up line of slope (1-q)/E and the other
    stresses constant, up to an error *)
Definition held (i : nat) (q E tm e : R) (d d' : drv) : Prop :=
  topr (dv_t d') = topr (dv_t d) + tm /\
  Rabs (top (dv_strain d') i - top (dv_strain d) i + (q - 1) * ((top (dv_stress d') i - top (dv_stress d) i) / E)) <= e /\
  (forall j, (j < 6)%nat -> j <> i -> Rabs (top (dv_stress d') j - top (dv_stress d) j) <= e).
(** the entries of a hold over the time increments dts: every recorded pair of strain and stress lies
    on the follow up line through the first one *)
Definition follow_entries (P : dparams) (c q E : R) (dts : list R) (st st' : tst) : Prop := exists le ls lt, let n := length dts in
  ts_e st' = le ++ ts_e st /\ length le = n /\ ts_s st' = ls ++ ts_s st /\ length ls = n /\ ts_t st' = lt ++ ts_t st /\ length lt = n /\
  forall k, (1 <= k <= n)%nat -> exists e, errors P k e /\
    Rabs (kth n k le - topr (ts_e st) + (q - 1) * ((kth n k ls - topr (ts_s st)) / E)) <= Rabs c * e /\
    kth n k lt = topr (ts_t st) + total (firstn k dts).

(** a stress controlled step: along u by [inc], up to an error *)
Definition stressed (u : vec) (inc tm e : R) (d d' : drv) : Prop :=
  topr (dv_t d') = topr (dv_t d) + tm /\ norm2 6 (fun i => top (dv_stress d') i - top (dv_stress d) i - inc * u i) <= e.
Definition stress_ok (c : sparams2) : Prop := (0 < sp_nsteps c)%nat /\ (0 < sp_nhold c)%nat /\ 0 <= sp_hold0 c /\ 0 <= sp_hold1 c /\
  allzero (sp_sdir c) = false /\ 0 < norm2 6 (sp_sdir c) /\ / 10 ^ 8 < Rabs (sp_srate c).
Definition sc_period (c : sparams2) : R := sp_hold0 c + sp_hold1 c + 2 * (norm2 6 (sp_sdir c) * (Rabs (sp_smax c - sp_smax c * sp_R c) / Rabs (sp_srate c))).

(** the cycles of an extrapolated test, newest first, marked true if computed: a computed one
    summarises recorded stresses; one that was not follows a computed one of number at least the
    minimum and lies on the line through the last two *)
Definition last_n (l : list (xcyc * bool)) : nat := match l with [] => O | (k, _) :: _ => xc_n k end.
Definition on_line (n2 n1 n0 v2 v1 v0 : R) : Prop := (v2 - v1) * (n1 - n0) = (v1 - v0) * (n2 - n1).
Inductive xtrace (p : xparams) (stress : list R) : list (xcyc * bool) -> Prop :=
| xt_none : xtrace p stress []
| xt_computed : forall k l, xtrace p stress l -> xc_n k = S (last_n l) -> (xc_n k <= xp_ncycles p)%nat ->
    (exists a ls b, stress = a ++ ls ++ b /\ greatest (xc_max k) ls /\ least (xc_min k) ls) -> xtrace p stress ((k, true) :: l)
| xt_jump : forall k c1 c0 b l, xtrace p stress ((c1, true) :: (c0, b) :: l) -> (xp_min p <= xc_n c1)%nat -> (xc_n k <= xp_ncycles p)%nat ->
    xc_n k = (xc_n c1 + (if Nat.leb (xc_n c1) (xp_unit p) then 1 else xp_jump p))%nat ->
    on_line (INR (xc_n k)) (INR (xc_n c1)) (INR (xc_n c0)) (xc_max k) (xc_max c1) (xc_max c0) ->
    on_line (INR (xc_n k)) (INR (xc_n c1)) (INR (xc_n c0)) (xc_min k) (xc_min c1) (xc_min c0) -> xtrace p stress ((k, false) :: (c1, true) :: (c0, b) :: l).
Definition computed (l : list (xcyc * bool)) : nat := length (filter (fun x => snd x) l).
(** follow up: how long a hold lasts, a cycle's duration, and the strain control of component i *)
Definition hold_time (logs : bool) (h : R) : R := if Rlt_dec 0 h then (if logs then h - 1 else h) else 0.
Definition fu_period (f : fparams) : R := hold_time (fp_logs f) (cp_hold0 (fp_c f)) + hold_time (fp_logs f) (cp_hold1 (fp_c f)) + 2 * (ampl (fp_c f) / cp_erate (fp_c f)).
Definition fu_ok (f : fparams) : Prop := let c := fp_c f in (fp_i f < 6)%nat /\ (0 < cp_nsteps c)%nat /\ (0 < cp_nhold c)%nat /\ cp_emax c * cp_R c <> cp_emax c.
Definition strained (i : nat) (inc tm e : R) (d d' : drv) : Prop :=
  topr (dv_t d') = topr (dv_t d) + tm /\ Rabs (top (dv_strain d') i - top (dv_strain d) i - inc) <= e.
(** consecutive vectors added to b differ by at most tol *)
Inductive paced (tol : R) (b : list vec) : list vec -> Prop :=
| pc_none : paced tol b b
| pc_more : forall v l, paced tol b l -> norm2 6 (fun i => v i - top l i) <= tol -> paced tol b (v :: l).
