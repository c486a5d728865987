(** Model of the standard tests of neml/drivers.py, on top of the driver of DrvModel.v.  Python lists
    that grow by append are kept newest first.  Plots are not modelled; the yield stress is in YldModel.v. *)
From Verif Require Import Base.
From Verif Require Import SolverModel SubstepModel CreepModel NlModel UniModel DrvModel.
From Coq Require Import ZArith String List.
Import ListNotations.

(** the local variables of a test: driver, recorded strain, stress and time, last increments *)
(** neml/drivers.py:453-617: local variables, as in the other tests *)
Record tst := { ts_d : drv; ts_e : list R; ts_s : list R; ts_t : list R; ts_ge : option vec; ts_ga : option R }.
(** neml/drivers.py:453-617: np.dot(driver.strain_int[-1], sdir) *)
Definition along (l : list vec) (sdir : vec) : R := dot 6 (top l) sdir.
(** neml/drivers.py:453-617: local variables, as in the other tests *)
Definition tst0 (M : pymodel) (T : R) : tst := {| ts_d := drv_init M T; ts_e := [0]; ts_s := [0]; ts_t := [0]; ts_ge := None; ts_ga := None |}.
(** what went wrong in a loop, if anything: an exception of a step, or the damage check *)
(** how the loops of neml/drivers.py:453-617 end; no code of its own *)
Inductive stop := Failed (e : pyexn) | Damaged.
(** one pass through the loops of strain_cyclic (neml/drivers.py:514-528, 540-553, 555-569, ...): a step,
    the damage check driver.stored_int[-1][0] > dtol if requested, the recording *)
Definition pass (sdir : vec) (dt : R) (dmg : option R) (r : py (drv * vec * R)) (st : tst) : tst * option stop :=
  match r with
  | Raise e => (st, Some (Failed e))
  | Ret (d, ei, a) =>
    let bad := match dmg with Some dtol => if Rlt_dec dtol (top (dv_stored d) 0%nat) then true else false | None => false end in
    if bad then ({| ts_d := d; ts_e := ts_e st; ts_s := ts_s st; ts_t := ts_t st; ts_ge := Some ei; ts_ga := Some a |}, Some Damaged)
    else ({| ts_d := d; ts_e := along (dv_strain d) sdir :: ts_e st; ts_s := along (dv_stress d) sdir :: ts_s st; ts_t := topr (ts_t st) + dt :: ts_t st;
             ts_ge := Some ei; ts_ga := Some a |}, None)
  end.
(** n passes, stopping at the first problem *)
(** how the loops of neml/drivers.py:453-617 end; no code of its own *)
Fixpoint passes (n : nat) (f : tst -> tst * option stop) (st : tst) : tst * option stop :=
  match n with O => (st, None) | S n => match f st with (st', None) => passes n f st' | x => x end end.
(** one thing after another *)
(** how the loops of neml/drivers.py:453-617 end; no code of its own *)
Definition andthen (x : tst * option stop) (f : tst -> tst * option stop) : tst * option stop := match x with (st, None) => f st | _ => x end.

(** steps of size einc at rate erate in direction pull, recorded along sdir *)
(** neml/drivers.py:453-617: a loop of erate_einc_step *)
Definition ramp (M : pymodel) (P : dparams) (sdir pull : vec) (erate einc T : R) (dmg : option R) (n : nat) : tst -> tst * option stop :=
  passes n (fun st => pass sdir (einc / erate) dmg (erate_einc_step M P (ts_d st) pull erate einc T (ts_ge st) (ts_ga st)) st).
(** steps at zero rate over times dt, starting from zero guesses *)
(** neml/drivers.py:453-617: a loop of erate_step at zero rate *)
Definition hold (M : pymodel) (P : dparams) (sdir : vec) (dt T : R) (dmg : option R) (n : nat) : tst -> tst * option stop :=
  passes n (fun st => pass sdir dt dmg (erate_step M P (ts_d st) sdir 0 (topr (ts_t st) + dt) T (Some v0) (Some (-1))) st).
(** minus sdir; no code of its own, used for neml/drivers.py:453-617 *)
Definition vopp (v : vec) : vec := fun i => - v i.
(** before a reversal the last increments are turned round *)
(** neml/drivers.py:453-617 *)
Definition flip (st : tst) : tst := {| ts_d := ts_d st; ts_e := ts_e st; ts_s := ts_s st; ts_t := ts_t st;
  ts_ge := option_map vopp (ts_ge st); ts_ga := option_map Ropp (ts_ga st) |}.

(** neml/drivers.py:360-451 uniaxial_test: the loop.  Steps that raise end the test quietly, as damage
    above dtol does unless check_dmg asks for an exception. *)
Definition ut_pass (M : pymodel) (P : dparams) (sdir : vec) (erate einc T dtol : R) (st : tst) : tst * option stop :=
  match erate_einc_step M P (ts_d st) sdir erate einc T (ts_ge st) (ts_ga st) with
  | Raise e => (st, Some (Failed e))
  | Ret (d, ei, a) =>
    if Rlt_dec dtol (pm_damage M (top (dv_stored d))) then ({| ts_d := d; ts_e := ts_e st; ts_s := ts_s st; ts_t := ts_t st; ts_ge := Some ei; ts_ga := Some a |}, Some Damaged)
    else ({| ts_d := d; ts_e := along (dv_strain d) sdir :: ts_e st; ts_s := along (dv_stress d) sdir :: ts_s st; ts_t := topr (ts_t st) + einc / erate :: ts_t st;
             ts_ge := Some ei; ts_ga := Some a |}, None)
  end.
(** neml/drivers.py:360-451 (uniaxial_test) *)
Definition uniaxial_test (M : pymodel) (P : dparams) (sdir : vec) (erate T emax dtol : R) (check : bool) (nsteps : nat) : py tst :=
  let einc := emax / INR nsteps in
  match passes nsteps (ut_pass M P sdir erate einc T dtol) (tst0 M T) with
  | (st, Some Damaged) => if check then Raise PyValueError else Ret st
  | (st, _) => Ret st
  end.

(** neml/drivers.py:453-617 strain_cyclic.  [cy]: the results per cycle, newest first: number, maximum,
    minimum, mean stress, energy, work. *)
Record cyc := { cy_n : nat; cy_max : R; cy_min : R; cy_mean : R; cy_u : R; cy_p : R }.
(** Python's max and min, called in neml/drivers.py:453-617; no NEML code *)
Fixpoint lmax (l : list R) (m : R) : R := match l with [] => m | x :: l => lmax l (Rmax m x) end.
(** Python's max and min, called in neml/drivers.py:453-617; no NEML code *)
Fixpoint lmin (l : list R) (m : R) : R := match l with [] => m | x :: l => lmin l (Rmin m x) end.
(** max(stress[si:]) *)
(** the slice stress[si:] in neml/drivers.py:453-617 *)
Definition since (si : nat) (l : list R) : list R := firstn (length l - si) l.
(** Python's max and min, called in neml/drivers.py:453-617; no NEML code *)
Definition pymax (l : list R) : R := match l with [] => 0 | x :: l => lmax l x end.
(** Python's max and min, called in neml/drivers.py:453-617; no NEML code *)
Definition pymin (l : list R) : R := match l with [] => 0 | x :: l => lmin l x end.
(** neml/drivers.py:453-617: its arguments *)
Record cparams := { cp_emax : R; cp_R : R; cp_erate : R; cp_T : R; cp_nsteps : nat; cp_sdir : vec; cp_hold0 : R; cp_hold1 : R; cp_nhold : nat; cp_dmg : option R }.
(** neml/drivers.py:453-617: a hold, if it is asked for *)
Definition do_hold (M : pymodel) (P : dparams) (c : cparams) (h : R) (st : tst) : tst * option stop :=
  if Rlt_dec 0 h then hold M P (cp_sdir c) (h / INR (cp_nhold c)) (cp_T c) (cp_dmg c) (cp_nhold c) st else (st, None).
(** neml/drivers.py:453-617 *)
Definition one_cycle (M : pymodel) (P : dparams) (c : cparams) (st : tst) : nat * (tst * option stop) :=
  let emin := cp_emax c * cp_R c in let einc := Rabs (emin - cp_emax c) / INR (cp_nsteps c) in
  match do_hold M P c (cp_hold0 c) st with
  | (st0, Some e) => (O, (st0, Some e))
  | (st0, None) =>
    let si := length (dv_strain (ts_d st0)) in
    let x1 := ramp M P (cp_sdir c) (vopp (cp_sdir c)) (cp_erate c) einc (cp_T c) (cp_dmg c) (cp_nsteps c) (flip st0) in
    let x2 := andthen x1 (do_hold M P c (cp_hold1 c)) in
    let x3 := andthen x2 (fun st2 => ramp M P (cp_sdir c) (cp_sdir c) (cp_erate c) (Rabs (cp_emax c - emin) / INR (cp_nsteps c)) (cp_T c) (cp_dmg c) (cp_nsteps c) (flip st2)) in
    (si, x3)
  end.
(** neml/drivers.py:453-617 *)
Fixpoint cycles (M : pymodel) (P : dparams) (c : cparams) (n : nat) (s : nat) (st : tst) (cy : list cyc) : tst * list cyc :=
  match n with
  | O => (st, cy)
  | S n =>
    match one_cycle M P c st with
    | (_, (st', Some _)) => (st', cy)
    | (si, (st', None)) => let w := since si (ts_s st') in
      cycles M P c n (S s) st' ({| cy_n := s; cy_max := pymax w; cy_min := pymin w; cy_mean := (pymax w + pymin w) / 2;
        cy_u := topr (dv_u (ts_d st')); cy_p := topr (dv_p (ts_d st')) |} :: cy)
    end
  end.
(** neml/drivers.py:453-617 *)
Definition strain_cyclic (M : pymodel) (P : dparams) (c : cparams) (ncycles : nat) : py (tst * list cyc) :=
  match ramp M P (cp_sdir c) (cp_sdir c) (cp_erate c) (cp_emax c / INR (cp_nsteps c)) (cp_T c) (cp_dmg c) (cp_nsteps c) (tst0 M (cp_T c)) with
  | (_, Some (Failed e)) => Raise e
  | (_, Some Damaged) => Raise PyValueError
  | (st, None) => Ret (cycles M P c ncycles 0 st [])
  end.

(** neml/drivers.py:1256-1361 creep.  The ramp raises if a step does; the hold ends at the first
    problem.  [cr_ri] is ri. *)
Record creepres := { cr_st : tst; cr_ri : nat; cr_failed : bool }.
(** neml/drivers.py:1256-1361: the ramp *)
Definition creep_up (M : pymodel) (P : dparams) (sdir : vec) (srate sinc T : R) (r : py tst) : py tst :=
  match r with
  | Raise e => Raise e
  | Ret st => match srate_sinc_step M P (ts_d st) sdir srate sinc T with
    | Raise e => Raise e
    | Ret d => Ret {| ts_d := d; ts_e := along (dv_strain d) sdir :: ts_e st; ts_s := along (dv_stress d) sdir :: ts_s st; ts_t := topr (dv_t d) :: ts_t st; ts_ge := None; ts_ga := None |}
    end
  end.
(** the times of the hold: np.linspace(0, hold, nsteps+1)[1:] + t0 or np.logspace(0, np.log10(hold), nsteps) + t0 *)
Definition lin_times (t0 h : R) (n : nat) : list R := map (fun k => t0 + INR (S k) * (h / INR n)) (seq 0 n).
(** neml/drivers.py:1256-1361: the times of the hold *)
Definition log_times (t0 h : R) (n : nat) : list R := map (fun k => Rpower h (INR k / INR (n - 1)) + t0) (seq 0 n).
(** neml/drivers.py:1256-1361: the test against elimit *)
Definition exceeds (elimit : R) (v : vec) : bool :=
  if Rlt_dec elimit (Rmax (Rmax (Rmax (Rabs (v 0%nat)) (Rabs (v 1%nat))) (Rmax (Rabs (v 2%nat)) (Rabs (v 3%nat)))) (Rmax (Rabs (v 4%nat)) (Rabs (v 5%nat)))) then true else false.
(** neml/drivers.py:1256-1361: the hold *)
Fixpoint creep_hold (M : pymodel) (P : dparams) (sdir : vec) (T elimit : R) (dmg : option R) (ts : list R) (st : tst) : tst * bool :=
  match ts with
  | [] => (st, false)
  | t :: ts =>
    match stress_step M P (ts_d st) (top (dv_stress (ts_d st))) t T with
    | Raise _ => (st, true)
    | Ret d =>
      let st1 := {| ts_d := d; ts_e := ts_e st; ts_s := ts_s st; ts_t := ts_t st; ts_ge := None; ts_ga := None |} in
      let ed := along (dv_strain d) sdir in
      if exceeds elimit (top (dv_strain d)) then (st1, true)
      else if Rlt_dec ed (topr (ts_e st)) then (st1, true)
      else if match dmg with Some dtol => if Rlt_dec dtol (pm_damage M (top (dv_stored d))) then true else false | None => false end then (st1, true)
      else creep_hold M P sdir T elimit dmg ts
        {| ts_d := d; ts_e := ed :: ts_e st; ts_s := along (dv_stress d) sdir :: ts_s st; ts_t := t :: ts_t st; ts_ge := None; ts_ga := None |}
    end
  end.
(** neml/drivers.py:1256-1361 *)
Definition creep (M : pymodel) (P : dparams) (sdir : vec) (smax srate h T elimit : R) (dmg : option R) (nsteps nup : nat) (logs : bool) : py creepres :=
  match Nat.iter nup (creep_up M P sdir srate (smax / INR nup) T) (Ret (tst0 M T)) with
  | Raise e => Raise e
  | Ret st => let t0 := topr (ts_t st) in
    let (st', f) := creep_hold M P sdir T elimit dmg (if logs then log_times t0 h nsteps else lin_times t0 h nsteps) st in
    Ret {| cr_st := st'; cr_ri := length (dv_strain (ts_d st)); cr_failed := f |}
  end.
(** 'tstrain': strain[ri:-1], newest first *)
(** neml/drivers.py:1256-1361: the entry tstrain of the result *)
Definition tstrain (r : creepres) : list R := match since (cr_ri r) (ts_e (cr_st r)) with [] => [] | _ :: l => l end.

(** neml/drivers.py:1475-1535 isochronous_curve: the loop, for a function that gives the strain at a
    stress.  The list is of (strain, stress), newest first.  [fuel] bounds a loop the code does not. *)
Fixpoint iso_loop (fuel : nat) (f : R -> py (R * bool)) (emax ds : R) (ncut max_cut : nat) (l : list (R * R)) : py (list (R * R)) :=
  if Rlt_dec (match l with (e, _) :: _ => e | [] => 0 end) emax then
    match fuel with
    | O => Raise Spins
    | S fuel =>
      let s := match l with (_, s) :: _ => s | [] => 0 end in
      match f (s + ds) with
      | Ret (e, true) => Ret ((emax, s) :: l)
      | Ret (e, false) => iso_loop fuel f emax ds ncut max_cut ((e, s + ds) :: l)
      | Raise Spins => Raise Spins
      | Raise _ => if Nat.ltb max_cut (S ncut) then Ret ((emax, s) :: l) else iso_loop fuel f emax (ds / 2) (S ncut) max_cut l
      end
    end
  else Ret l.
(** 1529-1533: the last point is moved back to emax on the line to the one before *)
Definition iso_end (emax : R) (l : list (R * R)) : list (R * R) :=
  match l with
  | (e1, s1) :: (e0, s0) :: l => (emax, s0 + (s1 - s0) * ((emax - e0) / (e1 - e0))) :: (e0, s0) :: l
  | l => l
  end.
(** neml/drivers.py:1475-1535 (isochronous_curve) *)
Definition isochronous (fuel : nat) (f : R -> py (R * bool)) (emax ds : R) (max_cut : nat) : py (list (R * R)) :=
  match iso_loop fuel f emax ds 0 max_cut [(0, 0)] with Ret l => Ret (iso_end emax l) | Raise e => Raise e end.
(** the strain function handed to it: res['tstrain'][-1], res['failed'] *)
(** neml/drivers.py:1497-1500 *)
Definition iso_strain (M : pymodel) (P : dparams) (sdir : vec) (srate time T elimit : R) (dmg : option R) (nsteps nup : nat) (s : R) : py (R * bool) :=
  match creep M P sdir s srate time T elimit dmg nsteps nup false with
  | Raise e => Raise e
  | Ret r => match tstrain r with [] => Raise PyValueError | e :: _ => Ret (e, cr_failed r) end
  end.

(** neml/drivers.py:1363-1418 thermomechanical_strain_raw, for one step per data point (substep = 1).
    The points are (time, temperature, strain); the results are stress and 'mechanical strain'.
    A MaximumIterations ends the loop, anything else is raised. *)
Fixpoint tm_loop (M : pymodel) (P : dparams) (sdir : vec) (q : R * R * R) (l : list (R * R * R)) (d : drv) (ge : option vec) (ga : option R) (acc : list (R * R)) : py (list (R * R) * bool) :=
  match l with
  | [] => Ret (acc, true)
  | ((t, T, e) as p) :: l =>
    let '(t0, T0, e0) := q in
    match erate_step M P d sdir ((e - e0) / (t - t0)) t T ge ga with
    | Raise MaximumIterations => Ret (acc, false)
    | Raise x => Raise x
    | Ret (d', ei, a) => tm_loop M P sdir p l d' (Some ei) (Some a) ((along (dv_stress d') sdir, along (dv_therm d') sdir) :: acc)
    end
  end.
(** the returned columns, oldest first: [:i] with i the last value of the loop variable, which is the
    number of the failing point, or the number of the last point if all went well *)
(** neml/drivers.py:1363-1418 (thermomechanical_strain_raw) *)
Definition thermomechanical (M : pymodel) (P : dparams) (sdir : vec) (q : R * R * R) (l : list (R * R * R)) : py (list (R * R * R) * list R * list R) :=
  let '(_, T0, _) := q in
  match tm_loop M P sdir q l (drv_init M T0) None None [] with
  | Raise e => Raise e
  | Ret (acc, ok) =>
    let res := (0, 0) :: rev acc in
    let i := if ok then length l else S (length acc) in
    Ret (firstn i (q :: l), map fst (firstn i res), map snd (firstn i res))
  end.

(** neml/drivers.py:1460-1465 rate_jump_test with given strains: the loop of one segment *)
Fixpoint jump_while (fuel : nat) (M : pymodel) (P : dparams) (sdir : vec) (erate inc e T : R) (st : tst) : py tst :=
  if Rlt_dec (topr (ts_e st)) e then
    match fuel with
    | O => Raise Spins
    | S fuel =>
      match erate_einc_step M P (ts_d st) sdir erate inc T None None with
      | Raise x => Raise x
      | Ret (d, ei, a) => jump_while fuel M P sdir erate inc e T
          {| ts_d := d; ts_e := along (dv_strain d) sdir :: ts_e st; ts_s := along (dv_stress d) sdir :: ts_s st; ts_t := ts_t st; ts_ge := None; ts_ga := None |}
      end
    end
  else Ret st.

(** neml/drivers.py:1554-1576 classify *)
Definition rlt (a b : R) : bool := if Rlt_dec a b then true else false.
(** neml/drivers.py:1554-1576 (classify) *)
Definition classify (ua ub pa pb e1a e1b e2a e2b rt at_ : R) : string :=
  if rlt (Rabs pb) at_ then "elastic"%string
  else if rlt (Rabs (ub - ua)) (rt * Rabs ub) then "elastic shakedown"%string
  else if andb (rlt (Rabs (e1b - e1a)) (rt * Rabs e1b)) (rlt (Rabs (e2b - e2a)) (rt * Rabs e2b)) then "plastic shakedown"%string
  else "ratcheting"%string.

(** neml/drivers.py:1630-1641 sym and skew, and the increments of def_grad_driver (1607-1609); [inv] is
    la.inv *)
Definition dg_sym (A : mat) : vec := fun i => match i with
  | 0%nat => A 0%nat 0%nat | 1%nat => A 1%nat 1%nat | 2%nat => A 2%nat 2%nat
  | 3%nat => sqrt 2 * A 1%nat 2%nat | 4%nat => sqrt 2 * A 0%nat 2%nat | 5%nat => sqrt 2 * A 0%nat 1%nat | _ => 0 end.
(** neml/drivers.py:1637-1641 *)
Definition dg_skew (A : mat) : vec := fun i => match i with 0%nat => - A 1%nat 2%nat | 1%nat => A 0%nat 2%nat | 2%nat => - A 0%nat 1%nat | _ => 0 end.
(** neml/drivers.py:1605-1611 *)
Definition dg_L (F1 F0 F1inv : mat) : mat := mm 3 (fun i j => F1 i j - F0 i j) F1inv.
(** neml/drivers.py:1605-1611 *)
Definition dg_dD (L : mat) : vec := dg_sym (fun i j => / 2 * (L i j + L j i)).
(** neml/drivers.py:1605-1611 *)
Definition dg_dW (L : mat) : vec := dg_skew (fun i j => / 2 * (L i j - L j i)).
