(** Model of the numbers a tensile test reports: neml/drivers.py:428-438 (end of uniaxial_test) and
    1537-1552 offset_stress.  A curve is a list of (strain, stress) in the order recorded.
    scipy is not in the repository; what it does is modelled: interp1d sorts by strain (stable), refuses
    values outside the data and otherwise is linear between neighbours; brentq refuses functions that
    have the same sign at both ends and otherwise returns a zero (some zero: its iterations are left out,
    and so is their tolerance). *)
From Coq Require Import List.
From Verif Require Import Base.
From Coq Require Import List.
Import ListNotations.
Open Scope R_scope.

(** the lists strain and stress of neml/drivers.py:428-438, as pairs *)
Definition curve := list (R * R).
(** interp1d sorts its points (scipy, called in neml/drivers.py:1546); no NEML code *)
Fixpoint insert_point (p : R * R) (l : curve) : curve :=
  match l with [] => [p] | q :: r => if Rlt_dec (fst q) (fst p) then q :: insert_point p r else p :: l end.
(** interp1d sorts its points (scipy, called in neml/drivers.py:1546); no NEML code *)
Definition sort_curve (l : curve) : curve := fold_right insert_point [] l.
(** scipy.interpolate.interp1d(...)(x): the first interval whose end is not below x *)
(** scipy.interpolate.interp1d, called in neml/drivers.py:1546; no NEML code *)
Fixpoint pieces (l : curve) (x : R) : option R :=
  match l with
  | p :: ((q :: r) as t) => if Rle_dec x (fst q) then Some (snd p + (snd q - snd p) / (fst q - fst p) * (x - fst p)) else pieces t x
  | _ => None end.
(** scipy.interpolate.interp1d, called in neml/drivers.py:1546; no NEML code *)
Definition interp1d (l : curve) (x : R) : option R :=
  match sort_curve l with
  | p :: _ => if Rlt_dec x (fst p) then None else pieces (sort_curve l) x
  | [] => None end.
(** scipy.optimize.brentq(f, a, b): the possible outcomes, None: an exception *)
(** scipy.optimize.brentq, called in neml/drivers.py:1546-1552; no NEML code *)
Inductive brentq (f : R -> option R) (a b : R) : option R -> Prop :=
| bq_raise : f a = None \/ f b = None -> brentq f a b None
| bq_left : f a = Some 0 -> f b <> None -> brentq f a b (Some a)
| bq_right : forall fa, f a = Some fa -> fa <> 0 -> f b = Some 0 -> brentq f a b (Some b)
| bq_same : forall fa fb, f a = Some fa -> f b = Some fb -> 0 < fa * fb -> brentq f a b None
| bq_zero : forall fa fb x, f a = Some fa -> f b = Some fb -> fa * fb < 0 -> a <= x <= b -> f x = Some 0 -> brentq f a b (Some x).
(** neml/drivers.py:1537-1552 (offset_stress): np.max(e) *)
Definition max_list (l : list R) : R := match l with [] => 0 | x :: r => fold_left Rmax r x end.
(** 1546-1549: the distance of the curve from the line with slope E through the offset *)
Definition distance (l : curve) (E eo : R) (e : R) : option R := match interp1d l e with Some s => Some (s - E * (e - eo)) | None => None end.
(** 1546-1552 offset_stress; e[1] = 0 gives inf or nan, taken as an exception *)
Inductive offset_stress (l : curve) (eo : R) : option R -> Prop :=
| os_short : nth_error l 1 = None -> offset_stress l eo None
| os_zero : forall s1, nth_error l 1 = Some (0, s1) -> offset_stress l eo None
| os_none : forall e1 s1, nth_error l 1 = Some (e1, s1) -> e1 <> 0 -> brentq (distance l (s1 / e1) eo) 0 (max_list (map fst l)) None -> offset_stress l eo None
| os_some : forall e1 s1 e, nth_error l 1 = Some (e1, s1) -> e1 <> 0 -> brentq (distance l (s1 / e1) eo) 0 (max_list (map fst l)) (Some e) -> offset_stress l eo (interp1d l e).
(** 428-438: modulus and yield stress of uniaxial_test; the yield stress is inf (None) after an exception *)
Definition abs_curve (l : curve) : curve := map (fun p => (Rabs (fst p), Rabs (snd p))) l.
(** neml/drivers.py:428-438 *)
Definition youngs_of (l : curve) : option R := match nth_error l 1 with Some (e1, s1) => if Req_EM_T e1 0 then None else Some (Rabs s1 / Rabs e1) | None => None end.
(** neml/drivers.py:428-438 *)
Inductive yield_of (l : curve) (offset : R) : option R -> Prop :=
| yo_inf : forall E, youngs_of l = Some E -> brentq (distance (abs_curve l) E offset) 0 (max_list (map fst l)) None -> yield_of l offset None
| yo_val : forall E e, youngs_of l = Some E -> brentq (distance (abs_curve l) E offset) 0 (max_list (map fst l)) (Some e) -> yield_of l offset (Some (E * (e - offset))).
