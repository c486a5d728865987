(** Curves and what an offset yield stress is, without scipy. *)
From Coq Require Import List.
From Verif Require Import Base YldModel.
From Coq Require Import List.
Import ListNotations.
Open Scope R_scope.

(** strains increase *)
Fixpoint rising (l : curve) : Prop := match l with p :: ((q :: _) as t) => fst p < fst q /\ rising t | _ => True end.
(** the slope from one point to the next never grows *)
Definition slope (p q : R * R) : R := (snd q - snd p) / (fst q - fst p).
Fixpoint concave (l : curve) : Prop := match l with p :: ((q :: (r :: _)) as t) => slope q r <= slope p q /\ concave t | _ => True end.
(** (e, s) lies on the straight line between two neighbouring points *)
Definition on_curve (l : curve) (e s : R) : Prop :=
  exists a p q b, l = a ++ p :: q :: b /\ fst p <= e <= fst q /\ s = snd p + slope p q * (e - fst p).
(** the strain that remains after unloading with modulus E *)
Definition permanent (E e s : R) : R := e - s / E.
(** the point of the curve where the permanent strain reaches eo *)
Definition yields_at (l : curve) (E eo e s : R) : Prop :=
  on_curve l e s /\ permanent E e s = eo
  /\ (forall e' s', on_curve l e' s' -> e' < e -> permanent E e' s' < eo)
  /\ (forall e' s', on_curve l e' s' -> e < e' -> eo < permanent E e' s').
