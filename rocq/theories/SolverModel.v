(** Model of src/solvers.cxx: the Newton-Raphson solver and the numerical
    Jacobian helper.  Vectors of doubles are real vectors, except that a norm
    may be NaN ([None]): this is what decides the convergence tests. *)
From Verif Require Import Base.

(** Outcome of a call: a value or a thrown NEMLError (src/nemlerror.cxx).
    [OutOfFuel] marks exhausted recursion fuel of the model; theorems show it
    never happens with the stated fuel. *)
(** include/nemlerror.h:11-33 *)
Inductive exn := NonlinearSolverError | LinalgError | RJError | OutOfFuel.
(** include/nemlerror.h:11-33 *)
Inductive res (A : Type) := Ok (a : A) | Throw (e : exn).
Arguments Ok {A} _.  Arguments Throw {A} _.

(** include/solvers.h:13-21 SolverParameters (verbose only prints). *)
Record sparams := { rtol : R; atol : R; miter : Z; linesearch : bool }.

(** include/solvers.h:28-41 Solvable, plus the linear algebra the solver uses:
    X is the unknown vector, D the pair (residual, Jacobian) filled by RJ,
    V a search direction.
    - [sys_init]: init_x;  [sys_RJ]: RJ, which may throw a NEMLError;
    - [sys_norm]: norm2_vec(R, n), [None] for NaN;
    - [sys_solve]: solve_mat(J, n, R) (nemlmath.cxx:907-921), [None] when LAPACK
      reports failure and LinalgError is thrown;
    - [sys_move x a d]: x[j] - a*d[j]. *)
Record nsys (X D V : Type) := {
  sys_init : X;
  sys_RJ : X -> option D;
  sys_norm : D -> option R;
  sys_solve : D -> option V;
  sys_move : X -> R -> V -> X }.
Arguments sys_init {X D V}. Arguments sys_RJ {X D V}. Arguments sys_norm {X D V}.
Arguments sys_solve {X D V}. Arguments sys_move {X D V}.

(** a < b on doubles where either side may be NaN *)
(** comparison and quotient of doubles, NaN included; no NEML code *)
Definition flt (a b : option R) : bool :=
  match a, b with Some x, Some y => if Rlt_dec x y then true else false | _, _ => false end.
(** a / b on non-negative doubles: x/0 is inf or NaN, never below a tolerance *)
(** comparison and quotient of doubles, NaN included; no NEML code *)
Definition fdiv (a b : option R) : option R :=
  match a, b with
  | Some x, Some y => if Req_EM_T y 0 then None else Some (x / y)
  | _, _ => None
  end.

(** solvers.cxx:71 the convergence test *)
Definition conv_test (p : sparams) (nR nR0 : option R) : bool :=
  flt nR (Some (atol p)) || flt (fdiv nR nR0) (Some (rtol p)).

(** solvers.cxx:84-91 the line search loop; [left] is mline - nsearch.  Returns
    the last point tried, its residual and the number of RJ calls. *)
Fixpoint line_search {X D V} (s : nsys X D V) (left : nat) (alpha : R) (x0 : X) (dir : V)
    (nR : option R) (calls : nat) : res (X * D * nat) :=
  let x := sys_move s x0 alpha dir in
  match sys_RJ s x with
  | None => Throw RJError
  | Some d =>
    if flt (sys_norm s d) nR then Ok (x, d, S calls)
    else match left with
         | O => Ok (x, d, S calls)
         | S left' => line_search s left' (alpha / 2) x0 dir nR (S calls)
         end
  end.

(** solvers.cxx:75-109 one iteration.  mline = 10 (line 32), so nine halvings
    remain after the first try. *)
Definition newton_step {X D V} (s : nsys X D V) (p : sparams) (x : X) (d : D) (calls : nat)
    : res (X * D * nat) :=
  match sys_solve s d with
  | None => Throw LinalgError
  | Some dir =>
    if linesearch p then line_search s 9 1 x dir (sys_norm s d) calls
    else
      let x' := sys_move s x 1 dir in
      match sys_RJ s x' with
      | None => Throw RJError
      | Some d' => Ok (x', d', S calls)
      end
  end.

(** solvers.cxx:69-119 the loop, and the final test 133-134. *)
Fixpoint newton_loop {X D V} (fuel : nat) (s : nsys X D V) (p : sparams) (nR0 : option R)
    (i : Z) (x : X) (d : D) (calls : nat) : res (X * D * nat) :=
  match fuel with
  | O => Throw OutOfFuel
  | S fuel' =>
    if conv_test p (sys_norm s d) nR0 then
      if Z.eqb i (miter p) then Throw NonlinearSolverError else Ok (x, d, calls)
    else
      match newton_step s p x d calls with
      | Throw e => Throw e
      | Ok (x', d', calls') =>
        let i' := (i + 1)%Z in
        if Z.leb (miter p) i' then
          if Z.eqb i' (miter p) then Throw NonlinearSolverError else Ok (x', d', calls')
        else newton_loop fuel' s p nR0 i' x' d' calls'
      end
  end.

(** solvers.cxx:29-136 newton: the solution, the residual/Jacobian pair left in
    R and J, and the number of calls to RJ. *)
Definition newton {X D V} (s : nsys X D V) (p : sparams) : res (X * D * nat) :=
  match sys_RJ s (sys_init s) with
  | None => Throw RJError
  | Some d => newton_loop (S (Z.to_nat (miter p))) s p (sys_norm s d) 0 (sys_init s) d 1
  end.

(** solvers.cxx:140-163 diff_jac: forward differences with step
    max(eps, eps*|x_i|). *)
Definition diff_step (eps : R) (x : vec) (i : nat) : R :=
  let dx := eps * Rabs (x i) in if Rlt_dec dx eps then eps else dx.
(** src/solvers.cxx:139-164 (diff_jac): the changed argument *)
Definition bump (x : vec) (i : nat) (dx : R) : vec := fun k => if Nat.eqb k i then x k + dx else x k.
(** src/solvers.cxx:139-164 (diff_jac) *)
Definition diff_jac (F : vec -> vec) (eps : R) (x : vec) : mat :=
  fun j i => let dx := diff_step eps x i in (F (bump x i dx) j - F x j) / dx.

(** solvers.cxx:167-182 diff_jac_check *)
Definition diff_jac_check (n : nat) (F : vec -> vec) (eps : R) (x : vec) (J : mat) : R :=
  let nJ := diff_jac F eps x in
  rsum n (fun i => rsum n (fun j => (J i j - nJ i j) * (J i j - nJ i j))) /
  rsum n (fun i => rsum n (fun j => J i j * J i j)).

(** The instance the library uses: n unknowns, exact arithmetic.  [solve] is
    LAPACK's dgesv (nemlmath.cxx:907-921). *)
Definition vec_sys (n : nat) (init : vec) (RJ : vec -> option (vec * mat))
    (solve : mat -> vec -> option vec) : nsys vec (vec * mat) vec :=
  {| sys_init := init; sys_RJ := RJ;
     sys_norm := fun d => Some (norm2 n (fst d));
     sys_solve := fun d => solve (snd d) (fst d);
     sys_move := fun x a v => fun j => x j - a * v j |}.
