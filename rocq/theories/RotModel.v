(** Model of src/math/rotations.cxx: quaternions and orientations.  A quaternion is the
    four doubles of [quat_]; objects are values (the ownership flag [store_] and the
    copy constructors are not modelled).  0/0, which the code turns into NaN, is [None]. *)
From Coq Require Import String ZArith.
From Verif Require Import Base.
From Verif Require Import NemlMathModel.
From Verif Require Import NemlMathSpec.

(** the four numbers of src/math/rotations.cxx:15-58 *)
Record quat := Quat { q0 : R; q1 : R; q2 : R; q3 : R }.

(** ** Quaternion *)
(** src/math/rotations.cxx:15-22 (Quaternion()), 561-565 (Orientation()) *)
Definition qdefault : quat := Quat 0 0 0 1.
(** src/math/rotations.cxx:99-107 *)
Definition qnorm (q : quat) : R := sqrt (q0 q * q0 q + q1 q * q1 q + q2 q * q2 q + q3 q * q3 q).
(** src/math/rotations.cxx:109-120, 270-276 *)
Definition qopp (q : quat) : quat := Quat (- q0 q) (- q1 q) (- q2 q) (- q3 q).
(** src/math/rotations.cxx:122-128, 278-284 *)
Definition qconj (q : quat) : quat := Quat (q0 q) (- q1 q) (- q2 q) (- q3 q).
(** src/math/rotations.cxx:130-136, 286-292 *)
Definition qflip (q : quat) : quat := Quat (- q0 q) (q1 q) (q2 q) (q3 q).
(** src/math/rotations.cxx:138-144, 294-302 *)
Definition qinv (q : quat) : quat :=
  let ns := qnorm q in let ns := ns * ns in
  Quat (q0 q / ns) (- q1 q / ns) (- q2 q / ns) (- q3 q / ns).
(** norm of the vector part, as computed in exp_ and log_ *)
(** src/math/rotations.cxx:304-335 *)
Definition qvnorm (q : quat) : R := sqrt (q1 q * q1 q + q2 q * q2 q + q3 q * q3 q).
(** src/math/rotations.cxx:304-318; None: sin(nv)/nv with nv = 0 *)
Definition qexp (q : quat) : option quat :=
  let nv := qvnorm q in
  if Req_EM_T nv 0 then None else
  let sf := sin nv / nv in
  Some (Quat (cos nv) (q1 q * sf) (q2 q * sf) (q3 q * sf)).
(** src/math/rotations.cxx:320-335; None: division by nv = 0 (which includes n = 0) *)
Definition qlog (q : quat) : option quat :=
  let n := qnorm q in
  let nv := qvnorm q in
  if Req_EM_T nv 0 then None else
  let sf := acos (q0 q / n) in
  Some (Quat (ln n) (q1 q / nv * sf) (q2 q / nv * sf) (q3 q / nv * sf)).
(** src/math/rotations.cxx:162-167, 248-253, 337-345, 759-764, 853-858 *)
Definition qmul (a b : quat) : quat :=
  Quat (q0 a * q0 b - (q1 a * q1 b + q2 a * q2 b + q3 a * q3 b))
       (q0 a * q1 b + q1 a * q0 b + q2 a * q3 b - q3 a * q2 b)
       (q0 a * q2 b + q2 a * q0 b + q3 a * q1 b - q1 a * q3 b)
       (q0 a * q3 b + q3 a * q0 b + q1 a * q2 b - q2 a * q1 b).
(** src/math/rotations.cxx:169-174, 236-246, 347-352 *)
Definition qsmul (s : R) (q : quat) : quat := Quat (q0 q * s) (q1 q * s) (q2 q * s) (q3 q * s).
(** src/math/rotations.cxx:176-180, 262-267 *)
Definition qdiv (a b : quat) : quat := qmul a (qinv b).
(** src/math/rotations.cxx:182-185, 255-260 *)
Definition qsdiv (q : quat) (s : R) : quat := qsmul (1 / s) q.
(** src/math/rotations.cxx:187-190 *)
Definition qpow (q : quat) (w : R) : option quat :=
  match qlog q with Some l => qexp (qsmul w l) | None => None end.
(** src/math/rotations.cxx:192-199 *)
Definition qdot (a b : quat) : R := q0 a * q0 b + q1 a * q1 b + q2 a * q2 b + q3 a * q3 b.
(** component i of quat_ *)
(** quat_[i], src/math/rotations.cxx:402-443 *)
Definition qcomp (q : quat) (i : nat) : R :=
  match i with 0%nat => q0 q | 1%nat => q1 q | 2%nat => q2 q | _ => q3 q end.
(** src/math/rotations.cxx:213-234 *)
Definition to_product_matrix (q : quat) : vec := fun k =>
  match k with
  | 0%nat => q0 q | 1%nat => - q1 q | 2%nat => - q2 q | 3%nat => - q3 q
  | 4%nat => q1 q | 5%nat => q0 q | 6%nat => - q3 q | 7%nat => q2 q
  | 8%nat => q2 q | 9%nat => q3 q | 10%nat => q0 q | 11%nat => - q1 q
  | 12%nat => q3 q | 13%nat => - q2 q | 14%nat => q1 q | _ => q0 q
  end.

(** ** Orientation *)
(** src/math/rotations.cxx:777-791 *)
Definition normalize_ (q : quat) : quat :=
  let nv := qnorm q in
  if Req_EM_T nv 0 then Quat 0 0 0 1 else Quat (q0 q / nv) (q1 q / nv) (q2 q / nv) (q3 q / nv).
(** src/math/rotations.cxx:567-583: Orientation(double pointer), Orientation(vector), Orientation(Quaternion) *)
Definition mk_orientation (q : quat) : quat := normalize_ q.
(** src/math/rotations.cxx:751-757 *)
Definition oinv (q : quat) : quat := qconj q.
(** src/math/rotations.cxx:766-770, 860-865 *)
Definition odiv (a b : quat) : quat := qmul a (oinv b).
(** src/math/rotations.cxx:772-775 *)
Definition opow (q : quat) (w : R) : option quat :=
  match qpow q w with Some p => Some (normalize_ p) | None => None end.

(** src/math/rotations.cxx:380-393 *)
Definition setRodrigues (r : vec) : quat :=
  let nr := r 0%nat * r 0%nat + r 1%nat * r 1%nat + r 2%nat * r 2%nat in
  let f := 1 / sqrt (1 + nr) in
  Quat f (r 0%nat * f) (r 1%nat * f) (r 2%nat * f).
(** src/math/rotations.cxx:402-443 *)
Definition setMatrix (M : vec) : quat :=
  let tr := t2 M 0 0 + t2 M 1 1 + t2 M 2 2 in
  if Rlt_dec 0 tr then
    let S := sqrt (1 + tr) * 2 in
    Quat (/ 4 * S) ((t2 M 2 1 - t2 M 1 2) / S) ((t2 M 0 2 - t2 M 2 0) / S) ((t2 M 1 0 - t2 M 0 1) / S)
  else if (if Rlt_dec (t2 M 1 1) (t2 M 0 0) then if Rlt_dec (t2 M 2 2) (t2 M 0 0) then true else false else false) then
    let S := sqrt (1 + t2 M 0 0 - t2 M 1 1 - t2 M 2 2) * 2 in
    Quat ((t2 M 2 1 - t2 M 1 2) / S) (/ 4 * S) ((t2 M 0 1 + t2 M 1 0) / S) ((t2 M 0 2 + t2 M 2 0) / S)
  else if Rlt_dec (t2 M 2 2) (t2 M 1 1) then
    let S := sqrt (1 + t2 M 1 1 - t2 M 0 0 - t2 M 2 2) * 2 in
    Quat ((t2 M 0 2 - t2 M 2 0) / S) ((t2 M 0 1 + t2 M 1 0) / S) (/ 4 * S) ((t2 M 1 2 + t2 M 2 1) / S)
  else
    let S := sqrt (1 + t2 M 2 2 - t2 M 0 0 - t2 M 1 1) * 2 in
    Quat ((t2 M 1 0 - t2 M 0 1) / S) ((t2 M 0 2 + t2 M 2 0) / S) ((t2 M 1 2 + t2 M 2 1) / S) (/ 4 * S).
(** src/math/rotations.cxx:453-463; None: unknown angle unit *)
Definition setAxisAngle (n : vec) (a : R) (angles : string) : option quat :=
  match convert_angle a angles with
  | None => None
  | Some a => let s := sin (a / 2) in Some (Quat (cos (a / 2)) (s * n 0%nat) (s * n 1%nat) (s * n 2%nat))
  end.
(** the C library's fmod for y > 0: x minus y times the quotient truncated towards zero *)
(** functions of the C library; no NEML code *)
Definition fmod (x y : R) : R :=
  let z := x / y in
  if Rle_dec 0 z then x - y * IZR (Int_part z) else x + y * IZR (Int_part (- z)).
(** src/math/rotations.cxx:793-814; None: std::invalid_argument *)
Definition to_kocks_ (a b c : R) (type : string) : option (R * R * R) :=
  if String.eqb "kocks" type then Some (a, b, c)
  else if String.eqb "bunge" type then
    Some (fmod (a - PI / 2) (2 * PI), fmod b PI, fmod (PI / 2 - c) (2 * PI))
  else if String.eqb "roe" type then Some (a, b, PI - c)
  else None.
(** src/math/rotations.cxx:816-837 *)
Definition from_kocks_ (a b c : R) (type : string) : option (R * R * R) :=
  if String.eqb "kocks" type then Some (a, b, c)
  else if String.eqb "bunge" type then
    Some (fmod (a + PI / 2) (2 * PI), fmod b PI, fmod (PI / 2 - c) (2 * PI))
  else if String.eqb "roe" type then Some (a, b, PI - c)
  else None.
(** src/math/rotations.cxx:839-851 *)
Definition kocks_to_matrix_ (a b c : R) : vec := fun k =>
  match k with
  | 0%nat => - sin c * sin a - cos c * cos a * cos b
  | 1%nat => sin c * cos a - cos c * sin a * cos b
  | 2%nat => cos c * sin b
  | 3%nat => cos c * sin a - sin c * cos a * cos b
  | 4%nat => - cos c * cos a - sin c * sin a * cos b
  | 5%nat => sin c * sin b
  | 6%nat => cos a * sin b
  | 7%nat => sin a * sin b
  | _ => cos b
  end.
(** src/math/rotations.cxx:474-488 *)
Definition setEulerAngles (a b c : R) (angles convention : string) : option quat :=
  match convert_angle a angles, convert_angle b angles, convert_angle c angles with
  | Some a, Some b, Some c =>
      match to_kocks_ a b c convention with
      | Some (na, nb, nc) => Some (setMatrix (kocks_to_matrix_ na nb nc))
      | None => None
      end
  | _, _, _ => None
  end.
(** src/math/rotations.cxx:499-510 *)
Definition setHopf (alpha beta gamma : R) (angles : string) : option quat :=
  match convert_angle alpha angles, convert_angle beta angles, convert_angle gamma angles with
  | Some al, Some be, Some ga =>
      Some (Quat (cos (be / 2) * cos (ga / 2)) (cos (be / 2) * sin (ga / 2))
                 (sin (be / 2) * cos (al + ga / 2)) (sin (be / 2) * sin (al + ga / 2)))
  | _, _, _ => None
  end.
(** src/math/rotations.cxx:520-531 *)
Definition setHyperspherical (a1 a2 a3 : R) (angles : string) : option quat :=
  match convert_angle a1 angles, convert_angle a2 angles, convert_angle a3 angles with
  | Some a1, Some a2, Some a3 =>
      Some (Quat (cos a1) (sin a1 * cos a2) (sin a1 * sin a2 * cos a3) (sin a1 * sin a2 * sin a3))
  | _, _, _ => None
  end.
(** src/math/tensors.cxx: Vector::dot, Vector::cross on three components *)
(** src/math/tensors.cxx:197-204 (dot) *)
Definition dot3 (a b : vec) : R := a 0%nat * b 0%nat + a 1%nat * b 1%nat + a 2%nat * b 2%nat.
(** src/math/tensors.cxx:224-235 (cross) *)
Definition cross3 (a b : vec) : vec := fun k =>
  match k with
  | 0%nat => a 1%nat * b 2%nat - a 2%nat * b 1%nat
  | 1%nat => a 2%nat * b 0%nat - a 0%nat * b 2%nat
  | _ => a 0%nat * b 1%nat - a 1%nat * b 0%nat
  end.
(** src/math/tensors.cxx: Vector::norm *)
(** src/math/tensors.cxx:219-222 (norm) *)
Definition norm3 (a : vec) : R := sqrt (dot3 a a).
(** src/math/rotations.cxx:540-559; None: std::runtime_error; 1.0e-16 is the literal *)
Definition setVectors (x y : vec) : option quat :=
  if Rlt_dec (1 / 10 ^ 16) (Rabs (dot3 x y)) then None else
  let z := cross3 x y in
  Some (setMatrix (fun k => match k with
    | 0%nat => x 0%nat | 1%nat => y 0%nat | 2%nat => z 0%nat | 3%nat => x 1%nat | 4%nat => y 1%nat | 5%nat => z 1%nat | 6%nat => x 2%nat | 7%nat => y 2%nat | _ => z 2%nat end)).

(** the C library's atan2 (signed zeros not modelled) *)
(** functions of the C library; no NEML code *)
Definition atan2 (y x : R) : R :=
  if Rlt_dec 0 x then atan (y / x)
  else if Rlt_dec x 0 then (if Rle_dec 0 y then atan (y / x) + PI else atan (y / x) - PI)
  else if Rlt_dec 0 y then PI / 2 else if Rlt_dec y 0 then - (PI / 2) else 0.

(** src/math/rotations.cxx:641-656, 658-663 *)
Definition to_matrix (q : quat) : vec := fun k =>
  let v1s := q1 q * q1 q in let v2s := q2 q * q2 q in let v3s := q3 q * q3 q in
  match k with
  | 0%nat => 1 - 2 * v2s - 2 * v3s
  | 1%nat => 2 * (q1 q * q2 q - q3 q * q0 q)
  | 2%nat => 2 * (q1 q * q3 q + q2 q * q0 q)
  | 3%nat => 2 * (q1 q * q2 q + q3 q * q0 q)
  | 4%nat => 1 - 2 * v1s - 2 * v3s
  | 5%nat => 2 * (q2 q * q3 q - q1 q * q0 q)
  | 6%nat => 2 * (q1 q * q3 q - q2 q * q0 q)
  | 7%nat => 2 * (q2 q * q3 q + q1 q * q0 q)
  | _ => 1 - 2 * v1s - 2 * v2s
  end.
(** src/math/rotations.cxx:594-618; the tolerance is the literal 1.0e-15 *)
Definition to_euler (q : quat) (angles convention : string) : option (R * R * R) :=
  let M := to_matrix q in
  let '(sa, sb, sc) :=
    if Rlt_dec (Rabs (Rabs (t2 M 2 2) - 1)) (1 / 10 ^ 15) then
      let sa := atan2 (t2 M 0 1) (t2 M 0 0) / 2 - PI / 2 in (sa, 0, - sa)
    else
      let sb := acos (t2 M 2 2) in
      let s := sin sb in
      (PI / 2 - atan2 (t2 M 2 0 / s) (t2 M 2 1 / s), sb, PI / 2 - atan2 (t2 M 0 2 / s) (t2 M 1 2 / s)) in
  match from_kocks_ sa sb sc convention with
  | None => None
  | Some (na, nb, nc) =>
      match cast_angle na angles, cast_angle nb angles, cast_angle nc angles with
      | Some a, Some b, Some c => Some (a, b, c)
      | _, _, _ => None
      end
  end.
(** src/math/rotations.cxx:620-639; outer None: unknown unit; the axis is None where the
    code divides by sin(na/2) = 0 *)
Definition to_axis_angle (q : quat) (angles : string) : option (option vec * R) :=
  let f := Rmax (-1) (Rmin (q0 q) 1) in
  let na := 2 * acos f in
  match cast_angle na angles with
  | None => None
  | Some a =>
      let s := sin (na / 2) in
      if Rlt_dec a (1 / 10 ^ 16) then Some (Some (fun k => match k with 0%nat => 1 | _ => 0 end), a)
      else if Req_EM_T s 0 then Some (None, a)
      else Some (Some (fun k => match k with 0%nat => q1 q / s | 1%nat => q2 q / s | _ => q3 q / s end), a)
  end.
(** src/math/rotations.cxx:665-678 *)
Definition to_rodrigues (q : quat) : vec :=
  let f := if Req_EM_T (q0 q) 0 then 1 / 10 ^ 16 else q0 q in
  fun k => match k with 0%nat => q1 q / f | 1%nat => q2 q / f | _ => q3 q / f end.
(** src/math/rotations.cxx:682-697 *)
Definition to_hopf (q : quat) (angles : string) : option (R * R * R) :=
  let gamma := 2 * atan2 (q1 q) (q0 q) in
  let alpha := atan2 (q3 q) (q2 q) - gamma / 2 in
  let beta := 2 * asin (sqrt (q2 q * q2 q + q3 q * q3 q)) in
  match cast_angle alpha angles, cast_angle beta angles, cast_angle gamma angles with
  | Some a, Some b, Some c => Some (a, b, c)
  | _, _, _ => None
  end.
(** src/math/rotations.cxx:700-720; None also where the code divides 0 by 0 *)
Definition to_hyperspherical (q : quat) (angles : string) : option (R * R * R) :=
  let n1 := sqrt (q3 q * q3 q + q2 q * q2 q + q1 q * q1 q + q0 q * q0 q) in
  let n2 := sqrt (q3 q * q3 q + q2 q * q2 q + q1 q * q1 q) in
  let n3 := sqrt (q3 q * q3 q + q2 q * q2 q) in
  if Req_EM_T n3 0 then None else
  let a1 := acos (q0 q / n1) in
  let a2 := acos (q1 q / n2) in
  let a3 := if Rle_dec 0 (q3 q) then acos (q2 q / n3) else - acos (q2 q / n3) in
  match cast_angle a1 angles, cast_angle a2 angles, cast_angle a3 angles with
  | Some a, Some b, Some c => Some (a, b, c)
  | _, _, _ => None
  end.

(** ** Applying a rotation *)
(** src/math/rotations.cxx:867-884 *)
Definition apply_v (q : quat) (a : vec) : vec :=
  let rv := qmul (qmul q (Quat 0 (a 0%nat) (a 1%nat) (a 2%nat))) (qconj q) in
  fun k => match k with 0%nat => q1 rv | 1%nat => q2 rv | _ => q3 rv end.
(** src/math/tensors.cxx RankTwo::transpose, RankTwo::dot (flat row major 3x3) *)
(** src/math/tensors.cxx:442-453 (transpose) *)
Definition tr_2 (A : vec) : vec := fun k =>
  match k with 0%nat => A 0%nat | 1%nat => A 3%nat | 2%nat => A 6%nat | 3%nat => A 1%nat | 4%nat => A 4%nat | 5%nat => A 7%nat | 6%nat => A 2%nat | 7%nat => A 5%nat | _ => A 8%nat end.
(** src/math/tensors.cxx:404-411 *)
Definition mul_2 (A B : vec) : vec := fun k =>
  let row i j := A (3 * i)%nat * B j + A (3 * i + 1)%nat * B (3 + j)%nat + A (3 * i + 2)%nat * B (6 + j)%nat in
  match k with
  | 0%nat => row 0%nat 0%nat | 1%nat => row 0%nat 1%nat | 2%nat => row 0%nat 2%nat | 3%nat => row 1%nat 0%nat | 4%nat => row 1%nat 1%nat | 5%nat => row 1%nat 2%nat
  | 6%nat => row 2%nat 0%nat | 7%nat => row 2%nat 1%nat | _ => row 2%nat 2%nat end.
(** src/math/rotations.cxx:886-890 *)
Definition apply_2 (q : quat) (A : vec) : vec := let Q := to_matrix q in mul_2 Q (mul_2 A (tr_2 Q)).
(** src/math/tensors.cxx:646-656: Symmetric(RankTwo) keeps the symmetric part *)
Definition mk_symmetric (A : vec) : vec := sym (fun k => / 2 * (A k + tr_2 A k)).
(** src/math/rotations.cxx:892-908: the value returned is built from the full tensor; the
    polynomial expressions for [rd] before it are computed and discarded *)
Definition apply_sym (q : quat) (d : vec) : vec := mk_symmetric (apply_2 q (usym d)).
(** src/math/rotations.cxx:910-922 *)
Definition apply_skew (q : quat) (w : vec) : vec := fun k =>
  let a := q0 q in let b := q1 q in let c := q2 q in let d := q3 q in
  let w0 := w 0%nat in let w1 := w 1%nat in let w2 := w 2%nat in
  match k with
  | 0%nat => - ((1 - 2 * (c * c) - 2 * (d * d) + 4 * (b * b) * (-1 + a * a + b * b + c * c + d * d)) * - w0
           + 2 * a * (d * w1 + c * - w2)
           - 2 * b * (-1 + 2 * (a * a) + 2 * (c * c) + 2 * (d * d)) * (c * w1 - d * - w2)
           + b * b * b * (-4 * c * w1 + 4 * d * - w2))
  | 1%nat => -4 * (a * c + b * d) * (a * b * - w0 + c * d * - w0 - a * c * w1 + b * d * w1)
         - 2 * (b * c - a * d) * ((-1 + 2 * (b * b) + 2 * (c * c)) * - w0 - 2 * a * c * - w2 + 2 * b * d * - w2)
         + (1 - 2 * (c * c) - 2 * (d * d)) * (w1 - 2 * (b * b) * w1 - 2 * (c * c) * w1 + 2 * a * b * - w2 + 2 * c * d * - w2)
  | _ => - (-2 * a * (c * - w0 + b * w1) + 4 * (a * a) * d * (b * - w0 - c * w1 + d * - w2)
           + (-1 + 2 * (b * b) + 2 * (c * c) + 2 * (d * d)) * (w2 + 2 * d * (b * - w0 - c * w1 + d * - w2)))
  end.
(** src/math/rotations.cxx:924-947: the entry (i,j,k,l) of the result *)
Definition apply_4 (q : quat) (a : vec) (i j k l : nat) : R :=
  let Q := t2 (to_matrix q) in
  rsum 3 (fun m => rsum 3 (fun n => rsum 3 (fun o => rsum 3 (fun p => Q i m * Q j n * Q k o * Q l p * t4 a m n o p)))).
(** src/math/rotations.cxx:956-959: the array R *)
Definition mandel_rot (M : vec) : vec := fun k =>
  let f1 := 1 in let f2 := r2 in let f3 := r2 in
  match k with
  | 0%nat => f1 * M 0%nat * M 0%nat | 1%nat => f1 * M 1%nat * M 1%nat | 2%nat => f1 * M 2%nat * M 2%nat | 3%nat => f3 * M 1%nat * M 2%nat | 4%nat => f3 * M 2%nat * M 0%nat | 5%nat => f3 * M 0%nat * M 1%nat
  | 6%nat => f1 * M 3%nat * M 3%nat | 7%nat => f1 * M 4%nat * M 4%nat | 8%nat => f1 * M 5%nat * M 5%nat | 9%nat => f3 * M 4%nat * M 5%nat | 10%nat => f3 * M 5%nat * M 3%nat | 11%nat => f3 * M 3%nat * M 4%nat
  | 12%nat => f1 * M 6%nat * M 6%nat | 13%nat => f1 * M 7%nat * M 7%nat | 14%nat => f1 * M 8%nat * M 8%nat | 15%nat => f3 * M 7%nat * M 8%nat | 16%nat => f3 * M 8%nat * M 6%nat | 17%nat => f3 * M 6%nat * M 7%nat
  | 18%nat => f2 * M 3%nat * M 6%nat | 19%nat => f2 * M 4%nat * M 7%nat | 20%nat => f2 * M 5%nat * M 8%nat | 21%nat => M 4%nat * M 8%nat + M 5%nat * M 7%nat | 22%nat => M 5%nat * M 6%nat + M 3%nat * M 8%nat | 23%nat => M 3%nat * M 7%nat + M 4%nat * M 6%nat
  | 24%nat => f2 * M 6%nat * M 0%nat | 25%nat => f2 * M 7%nat * M 1%nat | 26%nat => f2 * M 8%nat * M 2%nat | 27%nat => M 7%nat * M 2%nat + M 8%nat * M 1%nat | 28%nat => M 8%nat * M 0%nat + M 6%nat * M 2%nat | 29%nat => M 6%nat * M 1%nat + M 7%nat * M 0%nat
  | 30%nat => f2 * M 0%nat * M 3%nat | 31%nat => f2 * M 1%nat * M 4%nat | 32%nat => f2 * M 2%nat * M 5%nat | 33%nat => M 1%nat * M 5%nat + M 2%nat * M 4%nat | 34%nat => M 2%nat * M 3%nat + M 0%nat * M 5%nat | _ => M 0%nat * M 4%nat + M 1%nat * M 3%nat
  end.
(** src/math/rotations.cxx:949-964 *)
Definition apply_ss (q : quat) (a : mat) : mat := rotate_matrix 6 (flat 6 (mandel_rot (to_matrix q))) a.
(** src/math/rotations.cxx:966-971, 1050-1053 *)
Definition distance (a b : quat) : R :=
  let d := Rabs (qdot a b) in let d := if Rlt_dec 1 d then 1 else d in acos d.

(** src/math/rotations.cxx:1027-1036 *)
Definition wexp (w : vec) : quat :=
  let x := norm3 w in
  if Req_EM_T x 0 then qdefault else
  let f := sin (x / 2) / x in
  normalize_ (Quat (cos (x / 2)) (f * w 0%nat) (f * w 1%nat) (f * w 2%nat)).
(** src/math/rotations.cxx:1038-1048; None: 0/0 *)
Definition wlog (q : quat) : option vec :=
  if Req_EM_T (qvnorm q) 0 then None else
  let f := 2 * acos (q0 q / qnorm q) / qvnorm q in
  Some (fun k => match k with 0%nat => f * q1 q | 1%nat => f * q2 q | _ => f * q3 q end).
(** src/math/rotations.cxx:1055-1069; None: a zero vector, or parallel ones, so that
    Vector::normalize divides by zero *)
Definition rotate_to (a b : vec) : option quat :=
  let aa : vec := fun k => a k / norm3 a in
  let bb : vec := fun k => b k / norm3 b in
  let cc := cross3 aa bb in
  if Req_EM_T (norm3 a) 0 then None else if Req_EM_T (norm3 b) 0 then None else
  if Req_EM_T (norm3 cc) 0 then None else
  let axis : vec := fun k => cc k / norm3 cc in
  let angle := acos (dot3 aa bb) in
  setAxisAngle axis angle "radians".
(** src/math/rotations.cxx:1071-1078 *)
Definition rotate_to_family (a b : vec) (ang : R) : option quat :=
  match rotate_to a b, setAxisAngle b ang "radians" with
  | Some base, Some null => Some (qmul null base)
  | _, _ => None
  end.
(** src/math/rotations.cxx:1081-1088: CrystalOrientation from its parameters *)
Definition crystal_orientation (angles : R * R * R) (angle_type angle_convention : string) : option quat :=
  let '(a, b, c) := angles in setEulerAngles a b c angle_type angle_convention.
(** src/math/rotations.cxx:1112-1118 *)
Definition zero_orientation : option quat := crystal_orientation (0, 0, 0) "radians" "kocks".
(** src/math/rotations.cxx:1120-1128; to_euler's default arguments are in the header *)
Definition make_crystal_orientation (q : quat) : option quat :=
  match to_euler q "radians" "kocks" with
  | Some e => crystal_orientation e "radians" "kocks"
  | None => None
  end.
(** src/math/rotations.cxx:981-993 (body of the loop of random_orientations): the
    quaternion built from the three random numbers *)
Definition random_quat (u0 u1 u2 : R) : quat :=
  Quat (sqrt (1 - u0) * sin (2 * PI * u1)) (sqrt (1 - u0) * cos (2 * PI * u1))
       (sqrt u0 * sin (2 * PI * u2)) (sqrt u0 * cos (2 * PI * u2)).
