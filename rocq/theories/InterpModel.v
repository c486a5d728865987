(** Model of src/interpolate.cxx and the polynomial helpers of
    src/math/nemlmath.cxx.  Array accesses that the code does not check
    ([points_.front()], [values_[ind]], [functions_[ind]], [poly[0]]) are
    modelled by [nth_error]: [None] is an out of range access (undefined
    behaviour in C++). *)
From Verif Require Import Base.

(** src/math/nemlmath.cxx:970-978 polyval: Horner, highest order first. *)
Definition polyval (poly : list R) (x : R) : option R :=
  match poly with
  | [] => None
  | p0 :: rest => Some (fold_left (fun res p => res * x + p) rest p0)
  end.

(** src/math/nemlmath.cxx:1007-1025 differentiate_poly, inner loop (1017-1019):
    res[i] *= (cs - i) for i < cs, then truncation to cs entries. *)
Fixpoint dpoly_scale (res : list R) (cs : nat) : list R :=
  match cs, res with
  | S c, a :: rest => a * INR cs :: dpoly_scale rest c
  | _, _ => []
  end.
(** outer loop (1011-1020): [None] models the failing resize of an empty
    polynomial. *)
Fixpoint differentiate_poly (poly : list R) (n : nat) : option (list R) :=
  match n with
  | O => Some poly
  | S k =>
    match poly with
    | [] => None
    | [_] => Some [0]
    | _ => differentiate_poly (dpoly_scale poly (length poly - 1)) k
    end
  end.

(** src/math/nemlmath.cxx:980-1005 poly_from_roots; coefficients are kept
    lowest order first until the final reverse.  One pass of the loop body:
    shift up, then subtract r times the previous polynomial. *)
Fixpoint sub_scaled (p q : list R) (r : R) : list R :=
  match p, q with
  | a :: p', b :: q' => (a - b * r) :: sub_scaled p' q' r
  | p, [] => p
  | [], _ => []
  end.
(** src/math/nemlmath.cxx:980-1005 (poly_from_roots) *)
Definition root_step (poly : list R) (r : R) : list R := sub_scaled (0 :: poly) poly r.
(** src/math/nemlmath.cxx:980-1005 (poly_from_roots) *)
Definition poly_from_roots (roots : list R) : list R := rev (fold_left root_step roots [1]).

(** interpolate.cxx:109-113, 132-136, 190-194, ...: index of the first point
    with x <= *it (the number of points if there is none). *)
Fixpoint find_ind (pts : list R) (x : R) : nat :=
  match pts with
  | [] => 0
  | p :: rest => if Rle_dec x p then 0 else S (find_ind rest x)
  end.

(** Common skeleton of interpolate.cxx:100-121, 123-144, 260-281, 283-304,
    348-369, 371-392: [lo]/[hi] are the results left/right of the table and
    [mid x1 x2 y1 y2] the result between two points. *)
Definition piecewise (pts vals : list R) (lo hi : option R)
    (mid : R -> R -> R -> R -> R) (x : R) : option R :=
  match hd_error pts, hd_error (rev pts) with
  | Some p0, Some pN =>
    if Rle_dec x p0 then lo
    else if Rle_dec pN x then hi
    else
      let ind := find_ind pts x in
      match nth_error pts (ind - 1), nth_error pts ind,
            nth_error vals (ind - 1), nth_error vals ind with
      | Some x1, Some x2, Some y1, Some y2 => Some (mid x1 x2 y1 y2)
      | _, _, _, _ => None
      end
  | _, _ => None
  end.

Inductive interp :=
| IPoly (coefs : list R)                    (* interpolate.cxx:28-62 *)
| IPLin (pts vals : list R)                 (* 65-144 *)
| IGen (pts : list R) (fs : list interp)    (* 146-217 *)
| ILogLin (pts vals : list R)               (* 219-304; vals as given, before log *)
| ISemiLogX (pts vals : list R)             (* 306-392 *)
| IConst (v : R)                            (* 394-428 *)
| IExp (A B : R)                            (* 430-466 *)
| IPow (A B : R)                            (* 468-504 *)
| IMTSShear (V0 D T0 : R)                   (* 506-544 *)
| IMTS (tau0 g0 q p k b : R) (mu : interp). (* 547-606 *)

Definition last_error (l : list R) : option R := hd_error (rev l).
(** the option monad for reads out of bounds; no code of its own *)
Definition omap (f : R -> R) (o : option R) : option R :=
  match o with Some v => Some (f v) | None => None end.
(** the option monad for reads out of bounds; no code of its own *)
Definition obind {A B} (o : option A) (f : A -> option B) : option B :=
  match o with Some v => f v | None => None end.

(** Interpolate::value of each class. *)
Fixpoint ivalue (i : interp) (x : R) : option R :=
  match i with
  | IPoly coefs => polyval coefs x                                   (* 54-57 *)
  | IPLin pts vals =>                                                (* 100-121 *)
    piecewise pts vals (hd_error vals) (last_error vals)
      (fun x1 x2 y1 y2 => (y2 - y1) / (x2 - x1) * (x - x1) + y1) x
  | IGen pts fs =>                                                   (* 181-198 *)
    let vals := map (fun f => ivalue f x) fs in
    match hd_error pts, hd_error (rev pts) with
    | Some p0, Some pN =>
      if Rle_dec x p0 then obind (hd_error vals) (fun v => v)
      else if Rle_dec pN x then obind (hd_error (rev vals)) (fun v => v)
      else obind (nth_error vals (find_ind pts x)) (fun v => v)
    | _, _ => None
    end
  | ILogLin pts vals =>                                              (* 260-281 *)
    let lv := map ln vals in
    piecewise pts lv (omap exp (hd_error lv)) (omap exp (last_error lv))
      (fun x1 x2 y1 y2 => exp ((y2 - y1) / (x2 - x1) * (x - x1) + y1)) x
  | ISemiLogX pts vals =>                                            (* 348-369 *)
    piecewise pts vals (hd_error vals) (last_error vals)
      (fun x1 x2 y1 y2 =>
         (y2 - y1) / (log10 x2 - log10 x1) * (log10 x - log10 x1) + y1) x
  | IConst v => Some v                                               (* 420-423 *)
  | IExp A B => Some (A * exp (B / x))                               (* 458-461 *)
  | IPow A B => Some (A * cpow x B)                                  (* 496-499 *)
  | IMTSShear V0 D T0 => Some (V0 - D / (exp (T0 / x) - 1))          (* 536-539 *)
  | IMTS tau0 g0 q p k b mu =>                                       (* 585-591 *)
    omap (fun m => tau0 * cpow (1 - cpow (k * x / (m * (b * b * b) * g0)) (1 / q)) (1 / p))
      (ivalue mu x)
  end.

(** Interpolate::derivative of each class. *)
Fixpoint iderivative (i : interp) (x : R) : option R :=
  match i with
  | IPoly coefs =>                                                   (* 32, 59-62 *)
    obind (differentiate_poly coefs 1) (fun d => polyval d x)
  | IPLin pts vals =>                                                (* 123-144 *)
    piecewise pts vals (Some 0) (Some 0) (fun x1 x2 y1 y2 => (y2 - y1) / (x2 - x1)) x
  | IGen pts fs =>                                                   (* 200-217 *)
    let vals := map (fun f => iderivative f x) fs in
    match hd_error pts, hd_error (rev pts) with
    | Some p0, Some pN =>
      if Rle_dec x p0 then obind (hd_error vals) (fun v => v)
      else if Rle_dec pN x then obind (hd_error (rev vals)) (fun v => v)
      else obind (nth_error vals (find_ind pts x)) (fun v => v)
    | _, _ => None
    end
  | ILogLin pts vals =>                                              (* 283-304 *)
    let lv := map ln vals in
    piecewise pts lv (Some 0) (Some 0)
      (fun x1 x2 y1 y2 =>
         exp ((y2 - y1) / (x2 - x1) * (x - x1) + y1) * (y2 - y1) / (x2 - x1)) x
  | ISemiLogX pts vals =>                                            (* 371-392 *)
    piecewise pts vals (Some 0) (Some 0)
      (fun x1 x2 y1 y2 => (y2 - y1) / (log10 x2 - log10 x1) / (x * ln 10)) x
  | IConst v => Some 0                                               (* 425-428 *)
  | IExp A B => Some (- A * B * exp (B / x) / (x * x))               (* 463-466 *)
  | IPow A B => Some (A * B * cpow x (B - 1))                        (* 501-504 *)
  | IMTSShear V0 D T0 =>                                             (* 541-544 *)
    Some (- D * T0 / (4 * ((x * sinh (T0 / (2 * x))) * (x * sinh (T0 / (2 * x))))))
  | IMTS tau0 g0 q p k b mu =>                                       (* 593-606 *)
    match ivalue mu x, iderivative mu x with
    | Some m, Some dm =>
      let b3 := b * b * b in
      let inner := k * x / (b3 * g0 * m) in
      let A := - tau0 * cpow inner (1 / q) * cpow (1 - cpow inner (1 / q)) (1 / p - 1)
               / (p * q * x) in
      let B := tau0 * cpow inner (1 / q) * cpow (1 - cpow inner (1 / q)) (1 / p - 1)
               / (p * q * m) in
      Some (A + B * dm)
    | _, _ => None
    end
  end.

(** std::is_sorted: non-strict. *)
Fixpoint is_sorted (l : list R) : bool :=
  match l with
  | a :: ((b :: _) as rest) => if Rlt_dec b a then false else is_sorted rest
  | _ => true
  end.

(** The valid_ flags: 65-78, 146-159, 219-238, 306-326; every other class
    leaves it true (11-16). *)
Definition ivalid (i : interp) : bool :=
  match i with
  | IPLin pts vals => is_sorted pts && Nat.eqb (length pts) (length vals)
  | IGen pts fs => is_sorted pts && Nat.eqb (length pts) (length fs + 1)
  | ILogLin pts vals =>
    is_sorted pts && Nat.eqb (length pts) (length vals)
    && forallb (fun v => if Rlt_dec v 0 then false else true) vals
  | ISemiLogX pts vals =>
    is_sorted pts && Nat.eqb (length pts) (length vals)
    && forallb (fun p => if Rlt_dec p 0 then false else true) pts
  | _ => true
  end.
