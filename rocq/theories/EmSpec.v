(** When a model uses the elastic model it was given. *)
From Coq Require Import List Arith.
From Verif Require Import EmModel.
Import ListNotations.

(** the objects a model is made of *)
Inductive part_of (h : heap) : addr -> addr -> Prop :=
  | part_self : forall a, part_of h a a
  | part_child : forall a o c b, h a = Some o -> In c (children (o_kind o)) -> part_of h c b -> part_of h a b.
Definition scalar_damage (h : heap) (a : addr) : Prop := exists o, h a = Some o /\ exists r ms, o_kind o = KScalar r ms.
Definition reading_damage (h : heap) (a : addr) : Prop := exists o, h a = Some o /\ exists ms, o_kind o = KScalar true ms.
(** states a program can reach *)
Definition reachable (s : state) : Prop := exists l, run start l = Some s.
(** a model built in the same way, with the elastic model [e] everywhere *)
Fixpoint rebuilt (e : emodel) (t : vtree) : vtree :=
  match t with VNode k r l => VNode k (match r with Some _ => Some e | None => None end) (map (rebuilt e) l) end.
(** the same program with every elastic model replaced *)
Definition with_elastic (e : emodel) (o : op) : op := match o with New k _ => New k e | SetElastic a _ => SetElastic a e end.
