(** Specification vocabulary shared by all models: finite sums, vectors and
    matrices as index functions, and C's [pow]/[log10] over the reals.  This
    file models no particular function of /repo; it fixes how doubles, arrays
    and BLAS kernels are represented (see DESIGN.md, "Numbers"). *)
From Coq Require Export Reals Lra Lia List Arith Bool.
From Coquelicot Require Export Coquelicot.
Export ListNotations.
Open Scope R_scope.

(** [rsum n f] = f 0 + ... + f (n-1). *)
Fixpoint rsum (n : nat) (f : nat -> R) : R :=
  match n with O => 0 | S k => rsum k f + f k end.

(** A double array.  Theorems only ever speak about the components below the
    array's length. *)
Definition vec := nat -> R.
(** A row-major matrix; CINDEX(i,j,n) of the code is the pair (i,j). *)
Definition mat := nat -> nat -> R.

Definition dot (n : nat) (a b : vec) : R := rsum n (fun i => a i * b i).
Definition norm2 (n : nat) (a : vec) : R := sqrt (dot n a a).
Definition mv (n : nat) (A : mat) (x : vec) : vec := fun i => rsum n (fun j => A i j * x j).
Definition mtv (n : nat) (A : mat) (x : vec) : vec := fun j => rsum n (fun i => A i j * x i).
Definition mm (n : nat) (A B : mat) : mat := fun i j => rsum n (fun k => A i k * B k j).
Definition delta (i j : nat) : R := if Nat.eqb i j then 1 else 0.
Definition outer (a b : vec) : mat := fun i j => a i * b j.
Definition vadd (a b : vec) : vec := fun i => a i + b i.
Definition vsub (a b : vec) : vec := fun i => a i - b i.
Definition vscal (k : R) (a : vec) : vec := fun i => k * a i.
Definition vzero : vec := fun _ => 0.
(** equality of the first n components *)
Definition veq (n : nat) (a b : vec) : Prop := forall i, (i < n)%nat -> a i = b i.
(** double array built from a list of literals *)
Definition vlist (l : list R) : vec := fun i => nth i l 0.

(** C's pow on the arguments for which its value is a real number: x > 0, or
    x = 0 with y >= 0.  (For x < 0 with a non-integer exponent C returns NaN,
    for x = 0, y < 0 it returns inf; the value given here is arbitrary and
    every theorem excludes these cases.)  Calls with a literal integer
    exponent, such as pow(x,2.0), are modelled by products instead. *)
Definition cpow (x y : R) : R :=
  if Rlt_dec 0 x then Rpower x y
  else if Req_EM_T y 0 then 1 else 0.
Definition log10 (x : R) : R := ln x / ln 10.
Definition copysign (a b : R) : R := if Rlt_dec b 0 then - Rabs a else Rabs a.
