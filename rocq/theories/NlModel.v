(** Model of the Python solvers neml/nlsolvers.py and of the solver in neml/arbbar.py.

    As in SolverModel.v the unknowns and the residual/Jacobian pair are abstract ([nsys]); the norm
    of a residual is [None] when numpy's norm is NaN, because comparisons with NaN are false and
    decide the loops. *)
From Verif Require Import Base.
From Verif Require Import SolverModel.
From Coq Require Import ZArith.

(** What a Python call does: return, or raise.  [Spins]: the fuel of an unbounded loop ran out. *)
(** how a call of neml/nlsolvers.py ends; no code of its own *)
Inductive pyexn := MaximumIterations | LinAlgError | ModelError | PyValueError | Spins.
(** how a call of neml/nlsolvers.py ends; no code of its own *)
Inductive py (A : Type) := Ret (a : A) | Raise (e : pyexn).
Arguments Ret {A} _.  Arguments Raise {A} _.

(** a > b, false if one of them is NaN *)
(** comparison and product of Python floats; no NEML code *)
Definition fgt (a b : option R) : bool := flt b a.
(** comparison and product of Python floats; no NEML code *)
Definition fmul (k : R) (a : option R) : option R := match a with Some x => Some (k * x) | None => None end.
(** neml/nlsolvers.py:48,96,174,219 and neml/arbbar.py:376: the condition of the while loops *)
Definition py_goes_on (rt at_ : R) (nR nR0 : option R) : bool := andb (fgt nR (fmul rt nR0)) (fgt nR (Some at_)).

(** neml/nlsolvers.py:122-144 and neml/arbbar.py:405-427 backtrack, from step length alpha on.  The
    direction of the code is minus [v]; [lin d v k] is la.norm(R0 - k * np.dot(J0, v)). *)
Fixpoint backtrack {X D V} (fuel : nat) (s : nsys X D V) (lin : D -> V -> R -> option R) (tau c : R)
    (x : X) (d : D) (v : V) (alpha : R) : py R :=
  match sys_RJ s (sys_move s x alpha v) with
  | None => Raise ModelError
  | Some d' =>
    if fgt (sys_norm s d') (lin d v (c * alpha)) then
      match fuel with O => Raise Spins | S f => backtrack f s lin tau c x d v (alpha * tau) end
    else Ret alpha
  end.

(** the while loop shared by the solvers: neml/nlsolvers.py:48-59 (newton_precalc), 96-115 (newton),
    174-185 (quasi_newton), 219-234 (scalar_newton), neml/arbbar.py:376-399 (newton, where [fail] is
    fail_iter).  [dir] gives the direction (None: la.solve raised), [len] its length.  The result also
    carries the last residual and the number of iterations, which the code prints or drops. *)
Fixpoint py_loop {X D V} (fuel : nat) (s : nsys X D V) (dir : D -> option V) (len : X -> D -> V -> py R)
    (rt at_ : R) (miter : Z) (fail : bool) (nR0 : option R) (i : Z) (x : X) (d : D) : py (X * D * Z) :=
  match fuel with
  | O => Raise Spins
  | S fuel' =>
    if py_goes_on rt at_ (sys_norm s d) nR0 then
      match dir d with
      | None => Raise LinAlgError
      | Some v =>
        match len x d v with
        | Raise e => Raise e
        | Ret f =>
          let x' := sys_move s x f v in
          match sys_RJ s x' with
          | None => Raise ModelError
          | Some d' =>
            let i' := (i + 1)%Z in
            if Z.ltb miter i' then (if fail then Raise MaximumIterations else Ret (x', d', i'))
            else py_loop fuel' s dir len rt at_ miter fail nR0 i' x' d'
          end
        end
      end
    else Ret (x, d, i)
  end.
(** neml/nlsolvers.py:18-120 *)
Definition py_run {X D V} (s : nsys X D V) (dir : D -> D -> option V) (len : X -> D -> V -> py R)
    (rt at_ : R) (miter : Z) (fail : bool) : py (X * D * Z) :=
  match sys_RJ s (sys_init s) with
  | None => Raise ModelError
  | Some d0 => py_loop (S (S (Z.to_nat miter))) s (dir d0) len rt at_ miter fail (sys_norm s d0) 0 (sys_init s) d0
  end.

(** the options linesearch = 'none', 'backtracking' or anything else; [bt] is fuel *)
(** neml/nlsolvers.py:18-120: the option linesearch *)
Inductive lsearch := LNone | LBacktracking (bt : nat) (tau c : R) | LUnknown.
(** neml/nlsolvers.py:18-120: the step length *)
Definition py_len {X D V} (s : nsys X D V) (lin : D -> V -> R -> option R) (l : lsearch) (x : X) (d : D) (v : V) : py R :=
  match l with
  | LNone => Ret 1
  | LBacktracking bt tau c => backtrack bt s lin tau c x d v 1
  | LUnknown => Raise PyValueError
  end.
(** neml/nlsolvers.py:66-120 newton; neml/arbbar.py:352-403 with fail_iter *)
Definition py_newton {X D V} (s : nsys X D V) (lin : D -> V -> R -> option R) (rt at_ : R) (miter : Z) (l : lsearch) (fail : bool) :=
  py_run s (fun _ => sys_solve s) (py_len s lin l) rt at_ miter fail.
(** neml/nlsolvers.py:18-64 newton_precalc: sys_solve is the action of the inverse Jacobian *)
Definition py_precalc {X D V} (s : nsys X D V) (rt at_ : R) (miter : Z) := py_run s (fun _ => sys_solve s) (fun _ _ _ => Ret 1) rt at_ miter true.
(** neml/nlsolvers.py:146-190 quasi_newton: [qsolve d0 d] solves with the first Jacobian *)
Definition py_quasi {X D V} (s : nsys X D V) (qsolve : D -> D -> option V) (rt at_ : R) (miter : Z) := py_run s qsolve (fun _ _ _ => Ret 1) rt at_ miter true.
(** neml/nlsolvers.py:192-239 scalar_newton; quasi is the length of the step, if given *)
Definition py_scalar {X D V} (s : nsys X D V) (rt at_ : R) (miter : Z) (quasi : option R) :=
  py_run s (fun _ => sys_solve s) (fun _ _ _ => Ret (match quasi with Some q => q | None => 1 end)) rt at_ miter true.

(** the linear model of the residual in n dimensions *)
(** neml/nlsolvers.py:122-144: the linear model of backtrack *)
Definition vlin (n : nat) (d : vec * mat) (v : vec) (k : R) : option R := Some (norm2 n (fun i => fst d i - k * mv n (snd d) v i)).
(** scalar problems: residual R/J, which Python floats refuse for J = 0 *)
(** neml/nlsolvers.py:192-239 (scalar_newton) *)
Definition scalar_sys (x0 : R) (RJ : R -> option (R * R)) : nsys R (R * R) R :=
  {| sys_init := x0; sys_RJ := RJ; sys_norm := fun d => Some (Rabs (fst d));
     sys_solve := fun d => if Req_EM_T (snd d) 0 then None else Some (fst d / snd d);
     sys_move := fun x a v => x - a * v |}.
