(** Model of SubstepModel_sd::update_sd_actual, src/models.cxx:269-379: the
    adaptive substepping loop around one material update.

    Simplifications: the int counters are natural numbers (so max_divide >= 0
    and no overflow of 2^max_divide); the outputs s_np1, h_np1, u_np1, p_np1 are
    one value of type [St]; the array e is [vec] and the 6-column sensitivity
    matrix is [mat].  A thrown NEMLError carries no data. *)
From Verif Require Import Base.
From Verif Require Import SolverModel.

(** total strain, temperature and time at one end of a step *)
(** arguments of src/models.cxx:269-379 *)
Record load := { ld_e : vec; ld_T : R; ld_t : R }.

(** models.cxx:320-322: e_n + sm*e_diff etc. *)
Definition load_at (l0 l1 : load) (sm : R) : load :=
  {| ld_e := fun i => ld_e l0 i + sm * (ld_e l1 i - ld_e l0 i);
     ld_T := ld_T l0 + sm * (ld_T l1 - ld_T l0);
     ld_t := ld_t l0 + sm * (ld_t l1 - ld_t l0) |}.

(** update_step (models.cxx:381-454) of the underlying model:
    [step next past state] = new state, A_inc and E_inc, or a NEMLError. *)
Definition stepper (St : Type) := load -> load -> St -> option (St * mat * mat).

(** models.cxx:351-354 (np = nparams()) *)
Definition tangent_update (np : nat) (A_inc E_inc A_old : mat) (sf : R) : mat :=
  mm np A_inc (fun i j => A_old i j + E_inc i j * sf).

(** The loop 315-369.  [past] is (e_past,T_past,t_past), [st] is (s,h,u,p)_past,
    [calls] counts calls of update_step. *)
Fixpoint substep_loop {St} (fuel np : nat) (step : stepper St) (max_divide : nat) (force : bool)
    (l0 l1 : load) (tf nd cm cs : nat) (past : load) (st : St) (A_old : mat) (calls : nat)
    : res (St * mat * nat) :=
  match fuel with
  | O => Throw OutOfFuel
  | S fuel' =>
    if Nat.ltb cs tf then
      let sm := INR (cs + cm) / INR tf in
      let sf := INR cm / INR tf in
      let next := load_at l0 l1 sm in
      match step next past st with
      | None =>                                       (* 331-338 *)
        let nd' := S nd in
        if Nat.leb max_divide nd' then Throw NonlinearSolverError
        else substep_loop fuel' np step max_divide force l0 l1 tf nd' (cm / 2) cs past st A_old (S calls)
      | Some (st', A_inc, E_inc) =>
        if force && Nat.ltb nd max_divide then        (* 341-345 *)
          substep_loop fuel' np step max_divide force l0 l1 tf (S nd) (cm / 2) cs past st A_old (S calls)
        else                                          (* 347-368 *)
          substep_loop fuel' np step max_divide force l0 l1 tf nd cm (cs + cm) next st'
            (tangent_update np A_inc E_inc A_old sf) (S calls)
      end
    else Ok (st, A_old, calls)
  end.

(** models.cxx:269-379.  The result is the final state, the accumulated matrix
    whose leading 6x6 block is copied to A_np1 (371-376), and the number of
    calls of update_step. *)
Definition substep_update {St} (np : nat) (step : stepper St) (max_divide : nat) (force : bool)
    (l0 l1 : load) (st : St) : res (St * mat * nat) :=
  let tf := Nat.pow 2 max_divide in
  substep_loop (S (tf + max_divide)) np step max_divide force l0 l1 tf 0 tf 0 l0 st (fun _ _ => 0) 0.
