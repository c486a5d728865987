(** Model of the remaining tests of neml/drivers.py: stress_relaxation, strain_cyclic_followup,
    stress_cyclic, rate_jump_test and strain_cyclic_extrapolated, on top of TestsModel.v.  Lists
    that grow by append are kept newest first.  The optional starting history of rate_jump_test and
    the printing are not modelled. *)
From Verif Require Import Base.
From Verif Require Import SolverModel SubstepModel CreepModel NlModel UniModel DrvModel TestsModel.
From Coq Require Import ZArith String List.
Import ListNotations.

(** sdir = np.zeros((6,)); sdir[i] = c (neml/drivers.py:872-873, 1218-1219) *)
Definition axis (i : nat) (c : R) : vec := fun j => if Nat.eqb j i then c else 0.
(** uniaxial_test(...)['youngs'], called with emax = 1e-4, nsteps = 2 and the defaults dtol = 0.75 and x
    tension (neml/drivers.py:428, 875-876, 1213-1214); None = the IndexError of stress[1] *)
Definition youngs (l : tst) : option R :=
  match rev (ts_s l), rev (ts_e l) with _ :: s :: _, _ :: e :: _ => Some (Rabs s / Rabs e) | _, _ => None end.
(** neml/drivers.py:1205-1211, 360-451 (uniaxial_test): the call for the modulus, also in strain_cyclic_followup (824-1008) *)
Definition slope (M : pymodel) (P : dparams) (erate T : R) : py R :=
  match uniaxial_test M P (axis 0 1) erate T (/ 10 ^ 4) (3 / 4) false 2 with
  | Raise e => Raise e
  | Ret st => match youngs st with Some E => Ret E | None => Raise PyValueError end
  end.
(** the time increments of a hold: [h/n]*n or np.diff(np.logspace(0, np.log10(h), n+1)) *)
Definition lin_dts (h : R) (n : nat) : list R := repeat (h / INR n) n.
(** neml/drivers.py:1168-1254, 824-1008: the increments of a hold *)
Definition log_dts (h : R) (n : nat) : list R := map (fun k => Rpower h (INR (S k) / INR n) - Rpower h (INR k / INR n)) (seq 0 n).
(** neml/drivers.py:1168-1254, 824-1008: the increments of a hold *)
Definition hold_dts (logs : bool) (h : R) (n : nat) : list R := if logs then log_dts h n else lin_dts h n.

(** ** stress_relaxation (neml/drivers.py:1168-1254).  Nothing is caught.  The ramp's time is the
    driver's, which is the same number as the sum [ramp] records. *)
Fixpoint relax_hold (M : pymodel) (P : dparams) (sdir : vec) (i : nat) (T q E : R) (dts : list R) (st : tst) : py tst :=
  match dts with
  | [] => Ret st
  | dt :: dts =>
    match strain_hold_step M P (ts_d st) i (topr (dv_t (ts_d st)) + dt) T q E with
    | Raise e => Raise e
    | Ret d => relax_hold M P sdir i T q E dts
        {| ts_d := d; ts_e := along (dv_strain d) sdir :: ts_e st; ts_s := along (dv_stress d) sdir :: ts_s st; ts_t := topr (dv_t d) :: ts_t st; ts_ge := ts_ge st; ts_ga := ts_ga st |}
    end
  end.
(** neml/drivers.py:1168-1254 (stress_relaxation) *)
Record relaxres := { rx_up : tst; rx_st : tst; rx_ri : nat }.
(** neml/drivers.py:1168-1254 (stress_relaxation) *)
Definition relaxation (M : pymodel) (P : dparams) (i : nat) (tc emax erate h T q : R) (nsteps nup : nat) (logs : bool) : py relaxres :=
  match slope M P erate T with
  | Raise e => Raise e
  | Ret E =>
    match ramp M P (axis i tc) (axis i tc) erate (emax / INR nup) T None nup (tst0 M T) with
    | (_, Some (Failed e)) => Raise e
    | (_, Some Damaged) => Raise PyValueError
    | (st, None) =>
      match relax_hold M P (axis i tc) i T q E (hold_dts logs h nsteps) st with
      | Raise e => Raise e
      | Ret st' => Ret {| rx_up := st; rx_st := st'; rx_ri := length (dv_strain (ts_d st)) |}
      end
    end
  end.
(** the returned columns, oldest first (1245-1254): l[ri:-1], and minus the slope of the stress from
    l[ri] on *)
Definition from_ri (ri : nat) (l : list R) : list R := skipn ri (rev l).
(** neml/drivers.py:1245-1254 *)
Definition rstress (r : relaxres) : list R := removelast (from_ri (rx_ri r) (ts_s (rx_st r))).
(** neml/drivers.py:1245-1254 *)
Definition rstrain (r : relaxres) : list R := removelast (from_ri (rx_ri r) (ts_e (rx_st r))).
(** neml/drivers.py:1245-1254 *)
Definition rtime (r : relaxres) : list R := let l := from_ri (rx_ri r) (ts_t (rx_st r)) in map (fun x => x - hd 0 l) (removelast l).
(** np.diff, used in neml/drivers.py:1245-1254; no NEML code *)
Fixpoint diffs (l : list R) : list R := match l with a :: l' => match l' with b :: _ => b - a :: diffs l' | [] => [] end | [] => [] end.
(** neml/drivers.py:1245-1254 *)
Definition rrate (r : relaxres) : list R :=
  map (fun x => - fst x / snd x) (combine (diffs (from_ri (rx_ri r) (ts_s (rx_st r)))) (diffs (from_ri (rx_ri r) (ts_t (rx_st r))))).

(** ** strain_cyclic_followup (neml/drivers.py:824-1008) *)
Fixpoint fu_hold (M : pymodel) (P : dparams) (sdir : vec) (i : nat) (T q E : R) (dmg : option R) (dts : list R) (st : tst) : tst * option stop :=
  match dts with
  | [] => (st, None)
  | dt :: dts =>
    match strain_hold_step M P (ts_d st) i (topr (ts_t st) + dt) T q E with
    | Raise e => (st, Some (Failed e))
    | Ret d =>
      let bad := match dmg with Some dtol => if Rlt_dec dtol (top (dv_stored d) 0%nat) then true else false | None => false end in
      if bad then ({| ts_d := d; ts_e := ts_e st; ts_s := ts_s st; ts_t := ts_t st; ts_ge := ts_ge st; ts_ga := ts_ga st |}, Some Damaged)
      else fu_hold M P sdir i T q E dmg dts
        {| ts_d := d; ts_e := along (dv_strain d) sdir :: ts_e st; ts_s := along (dv_stress d) sdir :: ts_s st; ts_t := topr (ts_t st) + dt :: ts_t st; ts_ge := ts_ge st; ts_ga := ts_ga st |}
    end
  end.
(** the parameters are those of strain_cyclic with the direction axis i 1; i, q and logspace are its own *)
(** neml/drivers.py:824-1008 *)
Record fparams := { fp_c : cparams; fp_i : nat; fp_q : R; fp_logs : bool }.
(** neml/drivers.py:824-1008 *)
Definition fu_do_hold (M : pymodel) (P : dparams) (f : fparams) (E h : R) (st : tst) : tst * option stop :=
  if Rlt_dec 0 h then fu_hold M P (axis (fp_i f) 1) (fp_i f) (cp_T (fp_c f)) (fp_q f) E (cp_dmg (fp_c f)) (hold_dts (fp_logs f) h (cp_nhold (fp_c f))) st else (st, None).
(** the first step after a hold starts from zero strain and a unit stress increment *)
(** neml/drivers.py:824-1008 (strain_cyclic_followup): the assignments after a hold *)
Definition restart (a : R) (st : tst) : tst := {| ts_d := ts_d st; ts_e := ts_e st; ts_s := ts_s st; ts_t := ts_t st; ts_ge := Some v0; ts_ga := Some a |}.
(** neml/drivers.py:824-1008 *)
Definition fu_cycle (M : pymodel) (P : dparams) (f : fparams) (E : R) (st : tst) : nat * (tst * option stop) :=
  let c := fp_c f in let sdir := axis (fp_i f) 1 in
  let emin := cp_emax c * cp_R c in
  match fu_do_hold M P f E (cp_hold0 c) st with
  | (st0, Some e) => (O, (st0, Some e))
  | (st0, None) =>
    let si := length (dv_strain (ts_d st0)) in
    let x1 := ramp M P sdir (vopp sdir) (cp_erate c) (Rabs (emin - cp_emax c) / INR (cp_nsteps c)) (cp_T c) (cp_dmg c) (cp_nsteps c) (restart (-1) st0) in
    let x2 := andthen x1 (fu_do_hold M P f E (cp_hold1 c)) in
    let x3 := andthen x2 (fun st2 => ramp M P sdir sdir (cp_erate c) (Rabs (cp_emax c - emin) / INR (cp_nsteps c)) (cp_T c) (cp_dmg c) (cp_nsteps c) (restart 1 st2)) in
    (si, x3)
  end.
(** neml/drivers.py:824-1008 *)
Fixpoint fu_cycles (M : pymodel) (P : dparams) (f : fparams) (E : R) (n : nat) (s : nat) (st : tst) (cy : list cyc) : tst * list cyc :=
  match n with
  | O => (st, cy)
  | S n =>
    match fu_cycle M P f E st with
    | (_, (st', Some _)) => (st', cy)
    | (si, (st', None)) => let w := since si (ts_s st') in
      fu_cycles M P f E n (S s) st' ({| cy_n := s; cy_max := pymax w; cy_min := pymin w; cy_mean := (pymax w + pymin w) / 2;
        cy_u := topr (dv_u (ts_d st')); cy_p := topr (dv_p (ts_d st')) |} :: cy)
    end
  end.
(** neml/drivers.py:824-1008 *)
Definition followup (M : pymodel) (P : dparams) (f : fparams) (ncycles : nat) : py (tst * list cyc) :=
  let c := fp_c f in let sdir := axis (fp_i f) 1 in
  match slope M P (cp_erate c) (cp_T c) with
  | Raise e => Raise e
  | Ret E =>
    match ramp M P sdir sdir (cp_erate c) (cp_emax c / INR (cp_nsteps c)) (cp_T c) (cp_dmg c) (cp_nsteps c) (tst0 M (cp_T c)) with
    | (_, Some (Failed e)) => Raise e
    | (_, Some Damaged) => Raise PyValueError
    | (st, None) => Ret (fu_cycles M P f E ncycles 0 st [])
    end
  end.

(** ** stress_cyclic (neml/drivers.py:1011-1166).  The second component is 'quit'.  ts_t is the driver's
    time when a point is recorded; the test returns the driver's own list instead. *)
Definition sc_pass (sdir : vec) (etol : R) (r : py drv) (st : tst) : tst * bool :=
  match r with
  | Raise _ => (st, true)
  | Ret d =>
    if Rlt_dec etol (norm2 6 (fun i => top (dv_strain d) i - nth 1 (dv_strain d) v0 i))
    then ({| ts_d := d; ts_e := ts_e st; ts_s := ts_s st; ts_t := ts_t st; ts_ge := None; ts_ga := None |}, true)
    else ({| ts_d := d; ts_e := along (dv_strain d) sdir :: ts_e st; ts_s := along (dv_stress d) sdir :: ts_s st; ts_t := topr (dv_t d) :: ts_t st; ts_ge := None; ts_ga := None |}, false)
  end.
(** neml/drivers.py:1011-1166 (stress_cyclic) *)
Fixpoint sc_passes (n : nat) (f : tst -> tst * bool) (st : tst) : tst * bool :=
  match n with O => (st, false) | S n => match f st with (st', false) => sc_passes n f st' | x => x end end.
(** neml/drivers.py:1011-1166 (stress_cyclic) *)
Record sparams2 := { sp_smax : R; sp_R : R; sp_srate : R; sp_T : R; sp_nsteps : nat; sp_sdir : vec; sp_hold0 : R; sp_hold1 : R; sp_nhold : nat; sp_etol : R }.
(** neml/drivers.py:1011-1166 (stress_cyclic) *)
Definition sc_ramp (M : pymodel) (P : dparams) (c : sparams2) (sinc : R) : tst -> tst * bool :=
  sc_passes (sp_nsteps c) (fun st => sc_pass (sp_sdir c) (sp_etol c) (srate_sinc_step M P (ts_d st) (sp_sdir c) (sp_srate c) sinc (sp_T c)) st).
(** hold_time = None is 0, 0 here: both skip the hold *)
(** neml/drivers.py:1011-1166 (stress_cyclic) *)
Definition sc_hold (M : pymodel) (P : dparams) (c : sparams2) (h : R) (st : tst) : tst * bool :=
  if Rlt_dec 0 h then sc_passes (sp_nhold c) (fun st => sc_pass (sp_sdir c) (sp_etol c)
    (stress_step M P (ts_d st) (top (dv_stress (ts_d st))) (topr (dv_t (ts_d st)) + h / INR (sp_nhold c)) (sp_T c)) st) st
  else (st, false).
(** one thing after another, for neml/drivers.py:1011-1166; no code of its own *)
Definition sc_then (x : tst * bool) (f : tst -> tst * bool) : tst * bool := match x with (st, false) => f st | _ => x end.
(** neml/drivers.py:1011-1166 (stress_cyclic) *)
Definition sc_cycle (M : pymodel) (P : dparams) (c : sparams2) (st : tst) : tst * bool :=
  let smin := sp_smax c * sp_R c in
  sc_then (sc_then (sc_then (sc_hold M P c (sp_hold0 c) st) (sc_ramp M P c ((smin - sp_smax c) / INR (sp_nsteps c))))
    (sc_hold M P c (sp_hold1 c))) (sc_ramp M P c ((sp_smax c - smin) / INR (sp_nsteps c))).
(** neml/drivers.py:1011-1166 (stress_cyclic) *)
Fixpoint sc_cycles (M : pymodel) (P : dparams) (c : sparams2) (n s : nat) (st : tst) (cy : list cyc) : tst * list cyc :=
  match n with
  | O => (st, cy)
  | S n =>
    let si := length (dv_strain (ts_d st)) in
    match sc_cycle M P c st with
    | (st', true) => (st', cy)
    | (st', false) => let w := since si (ts_e st') in
      sc_cycles M P c n (S s) st' ({| cy_n := s; cy_max := pymax w; cy_min := pymin w; cy_mean := (pymax w + pymin w) / 2;
        cy_u := topr (dv_u (ts_d st')); cy_p := topr (dv_p (ts_d st')) |} :: cy)
    end
  end.
(** neml/drivers.py:1011-1166 (stress_cyclic) *)
Definition stress_cyclic (M : pymodel) (P : dparams) (c : sparams2) (ncycles : nat) : py (tst * list cyc) :=
  match Nat.iter (sp_nsteps c) (creep_up M P (sp_sdir c) (sp_srate c) (sp_smax c / INR (sp_nsteps c)) (sp_T c)) (Ret (tst0 M (sp_T c))) with
  | Raise e => Raise e
  | Ret st => Ret (sc_cycles M P c ncycles 0 st [])
  end.

(** ** rate_jump_test (neml/drivers.py:1420-1472) *)
(** the first step of a segment has no guesses *)
Definition fresh (st : tst) : tst := {| ts_d := ts_d st; ts_e := ts_e st; ts_s := ts_s st; ts_t := ts_t st; ts_ge := None; ts_ga := None |}.
(** neml/drivers.py:1420-1472: the segments of equal strain *)
Fixpoint jumps (M : pymodel) (P : dparams) (sdir : vec) (eper T : R) (n : nat) (rates : list R) (st : tst) : py tst :=
  match rates with
  | [] => Ret st
  | r :: rates =>
    match ramp M P sdir sdir r (eper / INR n) T None n (fresh st) with
    | (_, Some (Failed e)) => Raise e
    | (_, Some Damaged) => Raise PyValueError
    | (st', None) => jumps M P sdir eper T n rates st'
    end
  end.
(** with given strains: np.diff(np.insert(strains, 0, 0)) / n, and zip *)
(** neml/drivers.py:1420-1472: the segments up to given strains *)
Fixpoint jumps_to (fuel : nat) (M : pymodel) (P : dparams) (sdir : vec) (T : R) (n : nat) (prev : R) (l : list (R * R)) (st : tst) : py tst :=
  match l with
  | [] => Ret st
  | (e, r) :: l =>
    match jump_while fuel M P sdir r ((e - prev) / INR n) e T st with
    | Raise x => Raise x
    | Ret st' => jumps_to fuel M P sdir T n e l st'
    end
  end.
(** neml/drivers.py:1420-1472 *)
Definition rate_jump (fuel : nat) (M : pymodel) (P : dparams) (sdir : vec) (rates : list R) (T eper : R) (n : nat) (strains : option (list R)) : py tst :=
  match strains with
  | None => jumps M P sdir eper T n rates (tst0 M T)
  | Some ss => jumps_to fuel M P sdir T n 0 (combine ss rates) (tst0 M T)
  end.

(** ** strain_cyclic_extrapolated (neml/drivers.py:619-821).  The cycles that are computed are those of
    strain_cyclic.  jump_delta_N is not negative. *)
Record xparams := { xp_c : cparams; xp_min : nat; xp_unit : nat; xp_jump : nat; xp_allow : R; xp_ncycles : nat }.
(** 687-694 *)
Definition xsteps (c : cparams) : nat :=
  if andb (rlt 0 (cp_hold0 c)) (if Req_EM_T (cp_hold1 c) 0 then true else false) then (2 * cp_nsteps c + cp_nhold c)%nat
  else if andb (rlt 0 (cp_hold1 c)) (if Req_EM_T (cp_hold0 c) 0 then true else false) then (2 * cp_nsteps c + cp_nhold c)%nat
  else if andb (rlt 0 (cp_hold0 c)) (rlt 0 (cp_hold1 c)) then (2 * cp_nsteps c + 2 * cp_nhold c)%nat
  else (2 * cp_nsteps c)%nat.
(** number, maximum and minimum stress of the cycles, newest first *)
(** neml/drivers.py:619-821: local variables of strain_cyclic_extrapolated *)
Record xcyc := { xc_n : nat; xc_max : R; xc_min : R }.
(** neml/drivers.py:619-821: local variables of strain_cyclic_extrapolated *)
Record xstate := { x_st : tst; x_s : nat; x_flag : bool; x_cy : list xcyc }.
(** neml/drivers.py:707-744: linear extrapolation of one entry *)
Definition line (last before : R) (k : R) : R := last + (last - before) * k.
(** neml/drivers.py:707-744: appending to the lists of the driver *)
Definition push (d : drv) (h s : vec) : drv :=
  {| dv_strain := dv_strain d; dv_mech := dv_mech d; dv_therm := dv_therm d; dv_stress := s :: dv_stress d; dv_stored := h :: dv_stored d;
     dv_T := dv_T d; dv_t := dv_t d; dv_u := dv_u d; dv_p := dv_p d |}.
(** neml/drivers.py:707-744: appending to the lists of the driver *)
Definition with_d (st : tst) (d : drv) : tst := {| ts_d := d; ts_e := ts_e st; ts_s := ts_s st; ts_t := ts_t st; ts_ge := ts_ge st; ts_ga := ts_ga st |}.
(** 707-744: the result says whether the loop goes on.  stored_int[n-1-steps] is the entry [steps]
    before the last.  cycles[-2] raises an IndexError outside the try block. *)
Definition x_extrapolate (p : xparams) (x : xstate) : py (xstate * bool) :=
  let d := ts_d (x_st x) in let steps := xsteps (xp_c p) in
  let dN := if Nat.leb (x_s x) (xp_unit p) then 1%nat else xp_jump p in
  match x_cy x with
  | c1 :: c0 :: _ =>
    let k := INR dN / (INR (xc_n c1) - INR (xc_n c0)) in
    let h := fun i => line (top (dv_stored d) i) (nth steps (dv_stored d) v0 i) k in
    let s := fun i => line (top (dv_stress d) i) (nth (2 * steps) (dv_stress d) v0 i) k in
    if Rle_dec (Rabs (s 0%nat - top (dv_stress d) 0%nat)) (xp_allow p) then
      if Nat.ltb (xp_ncycles p) (x_s x + dN) then Ret ({| x_st := x_st x; x_s := (x_s x + dN)%nat; x_flag := x_flag x; x_cy := x_cy x |}, false)
      else Ret ({| x_st := with_d (x_st x) (push d h s); x_s := (x_s x + dN)%nat; x_flag := false;
                   x_cy := {| xc_n := (x_s x + dN)%nat; xc_max := line (xc_max c1) (xc_max c0) k; xc_min := line (xc_min c1) (xc_min c0) k |} :: x_cy x |}, true)
    else Ret ({| x_st := x_st x; x_s := x_s x; x_flag := false; x_cy := x_cy x |}, true)
  | _ => Raise PyValueError
  end.
(** 746-816 *)
Definition x_compute (M : pymodel) (P : dparams) (p : xparams) (x : xstate) : xstate * bool :=
  match one_cycle M P (xp_c p) (x_st x) with
  | (_, (st, Some _)) => ({| x_st := st; x_s := x_s x; x_flag := x_flag x; x_cy := x_cy x |}, false)
  | (si, (st, None)) => let w := since si (ts_s st) in
    ({| x_st := st; x_s := S (x_s x); x_flag := true; x_cy := {| xc_n := S (x_s x); xc_max := pymax w; xc_min := pymin w |} :: x_cy x |}, true)
  end.
(** 697-705 *)
Definition x_pass (M : pymodel) (P : dparams) (p : xparams) (x : xstate) : py (xstate * bool) :=
  if match cp_dmg (xp_c p) with Some dtol => rlt dtol (top (dv_stored (ts_d (x_st x))) 0%nat) | None => false end then Ret (x, false)
  else if andb (Nat.leb (xp_min p) (x_s x)) (x_flag x) then x_extrapolate p x else Ret (x_compute M P p x).
(** while s < ncycles; [fuel] bounds it *)
(** neml/drivers.py:697-816: the while loop *)
Fixpoint x_loop (fuel : nat) (M : pymodel) (P : dparams) (p : xparams) (x : xstate) : py xstate :=
  if Nat.ltb (x_s x) (xp_ncycles p) then
    match fuel with
    | O => Raise Spins
    | S fuel => match x_pass M P p x with Raise e => Raise e | Ret (x', true) => x_loop fuel M P p x' | Ret (x', false) => Ret x' end
    end
  else Ret x.
(** neml/drivers.py:619-821 *)
Definition extrapolated (fuel : nat) (M : pymodel) (P : dparams) (p : xparams) : py xstate :=
  let c := xp_c p in
  match ramp M P (cp_sdir c) (cp_sdir c) (cp_erate c) (cp_emax c / INR (cp_nsteps c)) (cp_T c) (cp_dmg c) (cp_nsteps c) (tst0 M (cp_T c)) with
  | (_, Some (Failed e)) => Raise e
  | (_, Some Damaged) => Raise PyValueError
  | (st, None) => x_loop fuel M P p {| x_st := st; x_s := 0; x_flag := false; x_cy := [] |}
  end.
