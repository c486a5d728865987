(** What a driver promises about its recorded history and its steps. *)
From Verif Require Import Base Diff.
From Verif Require Import SolverModel SubstepModel CreepModel NlModel NlSpec UniModel UniSpec DrvModel.
From Coq Require Import ZArith List.
Import ListNotations.

(** one recorded point *)
Record pt := { p_e : vec; p_m : vec; p_th : vec; p_s : vec; p_h : vec; p_T : R; p_t : R; p_u : R; p_p : R }.
(** the nine lists are the columns of one list of points *)
Definition recorded (d : drv) (l : list pt) : Prop :=
  dv_strain d = map p_e l /\ dv_mech d = map p_m l /\ dv_therm d = map p_th l /\ dv_stress d = map p_s l /\ dv_stored d = map p_h l /\
  dv_T d = map p_T l /\ dv_t d = map p_t l /\ dv_u d = map p_u l /\ dv_p d = map p_p l.
(** the thermal strain grows, in the three normal directions, by the temperature increment times the
    mean of the expansion coefficients *)
Definition thermal_ok (nts : bool) (M : pymodel) (q p : pt) : Prop := forall i, (i < 6)%nat ->
  p_th p i = if nts then 0 else p_th q i + (if Nat.ltb i 3 then (p_T p - p_T q) * ((pm_alpha M (p_T q) + pm_alpha M (p_T p)) / 2) else 0).
(** p is the model's answer to the mechanical strain of p, from the state recorded at q *)
Definition answers (M : pymodel) (q p : pt) : Prop := exists r,
  upd M (p_m p) (p_m q) (p_T p) (p_T q) (p_t p) (p_t q) (p_s q) (p_h q) (p_u q) (p_p q) = Some r /\
  p_s p = pr_s r /\ p_h p = pr_h r /\ p_u p = pr_u r /\ p_p p = pr_p r.
Definition sums (p : pt) : Prop := forall i, p_e p i = p_m p i + p_th p i.
(** newest first: a virgin point, then one answer after the other *)
Inductive history_of (nts : bool) (M : pymodel) (T0 : R) : list pt -> Prop :=
| ho_start : forall p, (forall i, p_e p i = 0) -> (forall i, p_m p i = 0) -> (forall i, p_th p i = 0) -> (forall i, p_s p i = 0) ->
    p_h p = ba_init (pm_base M) -> p_T p = T0 -> p_t p = 0 -> p_u p = 0 -> p_p p = 0 -> history_of nts M T0 [p]
| ho_next : forall p q l, history_of nts M T0 (q :: l) -> sums p -> thermal_ok nts M q p -> answers M q p -> history_of nts M T0 (p :: q :: l).

(** within the tolerances, where r0 is the residual at the guess *)
Definition within (P : dparams) (r r0 : R) : Prop := 0 <= r /\ (r <= dp_rt P * r0 \/ r <= dp_at P).
(** e is the sum of n residuals that a solver accepted *)
Inductive errors (P : dparams) : nat -> R -> Prop :=
| er_none : errors P 0 0
| er_more : forall n e r r0, errors P n e -> within P r r0 -> errors P (S n) (e + r).
(** a residual and its matrix of derivatives agree along every curve *)
Definition exact_RJ (n : nat) (RJ : vec -> option (vec * mat)) (x : vec) : Prop := forall (y : R -> vec) (r : R -> vec * mat) w v,
  y w = x -> path n y w v -> locally w (fun z => RJ (y z) = Some (r z)) -> path n (fun z => fst (r z)) w (mv n (snd (r w)) v).
(** the slope of the driver's material call *)
Definition exact_call (M : pymodel) (P : dparams) (d : drv) (t1 T1 : R) (e : vec) : Prop := exact_at (fun y => dupd M P d y t1 T1) e.
