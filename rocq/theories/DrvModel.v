(** Model of the small strain driver of neml/drivers.py: Driver, Driver_sd and its steps. *)
From Verif Require Import Base.
From Verif Require Import SolverModel SubstepModel CreepModel NlModel UniModel.
From Coq Require Import ZArith List.
Import ListNotations.

(** neml/drivers.py:12-41,72-88: the nine lists of a driver, newest entry first (Python appends at
    the end and reads [-1]) *)
Record drv := { dv_strain : list vec; dv_mech : list vec; dv_therm : list vec; dv_stress : list vec; dv_stored : list vec;
  dv_T : list R; dv_t : list R; dv_u : list R; dv_p : list R }.
(** zero vectors and the last entry of a list, as in neml/drivers.py:17-41; no code of its own *)
Definition v0 : vec := fun _ => 0.
(** zero vectors and the last entry of a list, as in neml/drivers.py:17-41; no code of its own *)
Definition top (l : list vec) : vec := hd v0 l.
(** zero vectors and the last entry of a list, as in neml/drivers.py:17-41; no code of its own *)
Definition topr (l : list R) : R := hd 0 l.
(** neml/drivers.py:17-41 (__init__), 76-88 (__init__) *)
Definition drv_init (M : pymodel) (T : R) : drv :=
  {| dv_strain := [v0]; dv_mech := [v0]; dv_therm := [v0]; dv_stress := [v0]; dv_stored := [ba_init (pm_base M)];
     dv_T := [T]; dv_t := [0]; dv_u := [0]; dv_p := [0] |}.
(** the options of the driver; [dp_solve] is la.solve, [dp_bt] bounds the line search loop, which has
    no bound in the code *)
(** neml/drivers.py:17-41 (__init__), 76-88 (__init__): the options *)
Record dparams := { dp_rt : R; dp_at : R; dp_miter : Z; dp_nts : bool; dp_solve : nat -> mat -> vec -> option vec; dp_bt : nat }.

(** neml/drivers.py:90-140 solve_try: newton without, then with line search, for every guess; any
    exception moves on.  (opt.root, s2 in the code, is defined and not used.) *)
Fixpoint solve_try (P : dparams) (n : nat) (mk : vec -> nsys vec (vec * mat) vec) (guesses : list vec) : py vec :=
  match guesses with
  | [] => Raise MaximumIterations
  | g :: rest =>
    match py_newton (mk g) (vlin n) (dp_rt P) (dp_at P) (dp_miter P) LNone true with
    | Ret (x, _, _) => Ret x
    | Raise Spins => Raise Spins
    | Raise _ =>
      match py_newton (mk g) (vlin n) (dp_rt P) (dp_at P) (dp_miter P) (LBacktracking (dp_bt P) (1 / 2) (1 / 10000)) true with
      | Ret (x, _, _) => Ret x
      | Raise Spins => Raise Spins
      | Raise _ => solve_try P n mk rest
      end
    end
  end.

(** neml/drivers.py:154-168 update_thermal_strain *)
Definition thermal (M : pymodel) (P : dparams) (d : drv) (T1 : R) : vec :=
  if dp_nts P then v0
  else fun i => top (dv_therm d) i + (T1 - topr (dv_T d)) * (pm_alpha M T1 + pm_alpha M (topr (dv_T d))) / 2 * (if Nat.ltb i 3 then 1 else 0).
(** the call of update_sd all steps make, at total strain e *)
(** neml/drivers.py:170-221: the call of update_sd *)
Definition dupd (M : pymodel) (P : dparams) (d : drv) (e : vec) (t1 T1 : R) : option pres :=
  let en := thermal M P d T1 in
  upd M (fun i => e i - en i) (top (dv_mech d)) T1 (topr (dv_T d)) t1 (topr (dv_t d)) (top (dv_stress d)) (top (dv_stored d)) (topr (dv_u d)) (topr (dv_p d)).
(** neml/drivers.py:170-193 strain_step; an exception leaves the driver as it was *)
Definition strain_step (M : pymodel) (P : dparams) (d : drv) (e : vec) (t1 T1 : R) : py drv :=
  match dupd M P d e t1 T1 with
  | None => Raise ModelError
  | Some r => let en := thermal M P d T1 in
    Ret {| dv_strain := e :: dv_strain d; dv_mech := (fun i => e i - en i) :: dv_mech d; dv_therm := en :: dv_therm d;
           dv_stress := pr_s r :: dv_stress d; dv_stored := pr_h r :: dv_stored d; dv_T := T1 :: dv_T d; dv_t := t1 :: dv_t d;
           dv_u := pr_u r :: dv_u d; dv_p := pr_p r :: dv_p d |}
  end.

(** neml/drivers.py:195-221 stress_step *)
Definition stress_sys (M : pymodel) (P : dparams) (d : drv) (s1 : vec) (t1 T1 : R) (g : vec) :=
  vec_sys 6 g (fun e => match dupd M P d e t1 T1 with None => None | Some r => Some (fun i => pr_s r i - s1 i, pr_A r) end) (dp_solve P 6%nat).
(** neml/drivers.py:195-221 (stress_step) *)
Definition stress_guesses (d : drv) : list vec :=
  match dv_strain d with
  | a :: b :: _ => [a; fun i => a i + (a i - b i)]
  | _ => [top (dv_strain d)]
  end.
(** neml/drivers.py:195-221 (stress_step) *)
Definition stress_step (M : pymodel) (P : dparams) (d : drv) (s1 : vec) (t1 T1 : R) : py drv :=
  match solve_try P 6 (stress_sys M P d s1 t1 T1) (stress_guesses d) with
  | Raise e => Raise e
  | Ret e => strain_step M P d e t1 T1
  end.

(** sdir / la.norm(sdir) *)
(** neml/drivers.py:223-279 (erate_step): the direction *)
Definition unitv (v : vec) : vec := fun i => v i / norm2 6 v.
(** neml/drivers.py:223-279 erate_step.  The unknowns are the stress increment and the six strain
    increments.  If the time does not advance the last residual is infinite or NaN, and no comparison
    with its norm succeeds. *)
Definition erate_RJ (M : pymodel) (P : dparams) (d : drv) (sd : vec) (erate t1 T1 : R) (x : vec) : option (vec * mat) :=
  let dt := t1 - topr (dv_t d) in let a := x 0%nat in let ei := vtl x in
  match dupd M P d (fun i => top (dv_strain d) i + ei i) t1 T1 with
  | None => None
  | Some r => Some (fun i => if Nat.ltb i 6 then pr_s r i - (sd i * a + top (dv_stress d) i) else dot 6 ei sd / dt - erate,
      fun i j => if Nat.ltb i 6 then (if Nat.eqb j 0 then - sd i else pr_A r i (j - 1)%nat)
                 else (if Nat.eqb j 0 then 0 else sd (j - 1)%nat / dt))
  end.
(** neml/drivers.py:223-279 (erate_step) *)
Definition erate_sys (M : pymodel) (P : dparams) (d : drv) (sd : vec) (erate t1 T1 : R) (g : vec) : nsys vec (vec * mat) vec :=
  {| sys_init := g; sys_RJ := erate_RJ M P d sd erate t1 T1;
     sys_norm := fun b => if Req_EM_T (t1 - topr (dv_t d)) 0 then None else Some (norm2 7 (fst b));
     sys_solve := fun b => dp_solve P 7%nat (snd b) (fst b);
     sys_move := fun x a v => fun j => x j - a * v j |}.
(** neml/drivers.py:223-279 (erate_step) *)
Definition erate_guess (sd : vec) (ge : option vec) (ga : option R) : vec := fun i =>
  match i with O => match ga with Some a => a | None => 1 end | S j => match ge with Some e => e j | None => sd j / 10000 end end.
(** the new driver, the strain increment and the stress increment *)
(** neml/drivers.py:223-279 (erate_step) *)
Definition erate_step (M : pymodel) (P : dparams) (d : drv) (sdir : vec) (erate t1 T1 : R) (ge : option vec) (ga : option R) : py (drv * vec * R) :=
  let sd := unitv sdir in
  match solve_try P 7 (erate_sys M P d sd erate t1 T1) [erate_guess sd ge ga] with
  | Raise e => Raise e
  | Ret x => match strain_step M P d (fun i => top (dv_strain d) i + vtl x i) t1 T1 with
    | Raise e => Raise e
    | Ret d' => Ret (d', vtl x, x 0%nat)
    end
  end.
(** neml/drivers.py:281-293 erate_einc_step (a zero rate is a ZeroDivisionError) *)
Definition erate_einc_step (M : pymodel) (P : dparams) (d : drv) (sdir : vec) (erate einc T1 : R) (ge : option vec) (ga : option R) : py (drv * vec * R) :=
  if Req_EM_T erate 0 then Raise PyValueError else erate_step M P d sdir erate (topr (dv_t d) + einc / erate) T1 ge ga.

(** np.isclose(a, b) with numpy's default tolerances, and np.allclose(v, 0) *)
(** np.isclose and np.allclose, called in neml/drivers.py:295-316; no NEML code *)
Definition isclose (a b : R) : bool := if Rle_dec (Rabs (a - b)) (/ 10 ^ 8 + / 10 ^ 5 * Rabs b) then true else false.
(** np.isclose and np.allclose, called in neml/drivers.py:295-316; no NEML code *)
Definition allzero (v : vec) : bool := andb (isclose (v 0%nat) 0) (andb (isclose (v 1%nat) 0) (andb (isclose (v 2%nat) 0)
  (andb (isclose (v 3%nat) 0) (andb (isclose (v 4%nat) 0) (isclose (v 5%nat) 0))))).
(** neml/drivers.py:295-316 srate_sinc_step *)
Definition srate_target (d : drv) (sdir : vec) (sinc : R) : vec :=
  if allzero sdir then top (dv_stress d) else fun i => top (dv_stress d) i + sdir i / norm2 6 sdir * sinc.
(** neml/drivers.py:295-316 (srate_sinc_step) *)
Definition srate_dt (d : drv) (sdir : vec) (srate sinc : R) : R :=
  if isclose srate 0 then 0 else Rabs (dot 6 (fun i => srate_target d sdir sinc i - top (dv_stress d) i) sdir / srate).
(** neml/drivers.py:295-316 (srate_sinc_step) *)
Definition srate_sinc_step (M : pymodel) (P : dparams) (d : drv) (sdir : vec) (srate sinc T1 : R) : py drv :=
  stress_step M P d (srate_target d sdir sinc) (topr (dv_t d) + srate_dt d sdir srate sinc) T1.

(** neml/drivers.py:318-358 strain_hold_step; [oset i k] is the k-th index other than i *)
Definition oset (i k : nat) : nat := if Nat.ltb k i then k else S k.
(** neml/drivers.py:318-358 (strain_hold_step) *)
Definition hold_RJ (M : pymodel) (P : dparams) (d : drv) (i : nat) (t1 T1 q E : R) (e : vec) : option (vec * mat) :=
  match dupd M P d e t1 T1 with
  | None => None
  | Some r => Some
      (fun k => match k with
         | O => (e i - top (dv_strain d) i) + (pr_s r i - top (dv_stress d) i) / E * (q - 1)
         | S k => pr_s r (oset i k) - top (dv_stress d) (oset i k) end,
       fun k j => match k with
         | O => (if Nat.eqb j 0 then 1 else 0) + pr_A r i j / E * (q - 1)
         | S k => pr_A r (oset i k) j end)
  end.
(** neml/drivers.py:318-358 (strain_hold_step) *)
Definition hold_sys (M : pymodel) (P : dparams) (d : drv) (i : nat) (t1 T1 q E : R) (g : vec) :=
  vec_sys 6 g (hold_RJ M P d i t1 T1 q E) (dp_solve P 6%nat).
(** neml/drivers.py:318-358 (strain_hold_step) *)
Definition strain_hold_step (M : pymodel) (P : dparams) (d : drv) (i : nat) (t1 T1 q E : R) : py drv :=
  if andb (negb (isclose q 1)) (isclose E (-1)) then Raise PyValueError
  else match solve_try P 6 (hold_sys M P d i t1 T1 q E) [top (dv_strain d)] with
  | Raise e => Raise e
  | Ret e => strain_step M P d e t1 T1
  end.

(** every way of moving a driver *)
(** calls by a user of neml/drivers.py:170-358; no code of its own *)
Inductive dcall :=
| CStrain (e : vec) (t1 T1 : R) | CStress (s : vec) (t1 T1 : R)
| CErate (sdir : vec) (erate t1 T1 : R) (ge : option vec) (ga : option R)
| CErateEinc (sdir : vec) (erate einc T1 : R) (ge : option vec) (ga : option R)
| CSrateSinc (sdir : vec) (srate sinc T1 : R)
| CHold (i : nat) (t1 T1 q E : R).
(** calls by a user of neml/drivers.py:170-358; no code of its own *)
Definition first_of (r : py (drv * vec * R)) : py drv := match r with Ret (d, _, _) => Ret d | Raise e => Raise e end.
(** calls by a user of neml/drivers.py:170-358; no code of its own *)
Definition do_call (M : pymodel) (P : dparams) (d : drv) (c : dcall) : py drv :=
  match c with
  | CStrain e t T => strain_step M P d e t T
  | CStress s t T => stress_step M P d s t T
  | CErate sd r t T ge ga => first_of (erate_step M P d sd r t T ge ga)
  | CErateEinc sd r i T ge ga => first_of (erate_einc_step M P d sd r i T ge ga)
  | CSrateSinc sd r i T => srate_sinc_step M P d sd r i T
  | CHold i t T q E => strain_hold_step M P d i t T q E
  end.
(** a user's calls, going on after exceptions *)
(** calls by a user of neml/drivers.py:170-358; no code of its own *)
Fixpoint drive (M : pymodel) (P : dparams) (d : drv) (cs : list dcall) : drv :=
  match cs with [] => d | c :: cs => drive M P (match do_call M P d c with Ret d' => d' | Raise _ => d end) cs end.
