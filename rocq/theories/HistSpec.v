(** Independent specification for History: a history is an ordered list of
    named, typed variables, each with its own values. *)
From Coq Require Import String.
From Verif Require Import Base.
From Verif Require Import HistModel.

(** Histories a program can obtain with the public operations other than
    reorder, overlapping unions and assignment between different layouts. *)
Inductive reachable : hist -> Prop :=
| R_empty : reachable hempty
| R_add : forall n t h h', reachable h -> hadd n t h = HOk h' -> reachable h'
| R_set : forall t n vs h h', reachable h -> length vs = ssize t -> hset t n vs h = HOk h' -> reachable h'
| R_zero : forall h, reachable h -> reachable (hzero h)
| R_scale : forall k h, reachable h -> reachable (hscale k h)
| R_plus : forall h o h', reachable h -> hplus h o = HOk h' -> reachable h'
| R_deepcopy : forall h, reachable h -> reachable (hdeepcopy h)
| R_blank : forall ex h h', reachable h -> hcopy_blank ex h = HOk h' -> reachable h'
| R_subset : forall vs h h', reachable h -> hsubset vs h = HOk h' -> reachable h'
| R_split : forall sep af h h', reachable h -> hsplit sep af h = HOk h' -> reachable h'
| R_union : forall h o, reachable h -> reachable o ->
    (forall n, In n (horder h) -> ~ In n (horder o)) -> reachable (hunion h o)
| R_deriv : forall dt h h', reachable h -> hderivative dt h = HOk h' -> reachable h'
| R_hderiv : forall h o h', reachable h -> reachable o -> hhist_derivative h o = HOk h' -> reachable h'.

(** A variable as the user sees it: its type and its values. *)
Definition has_var (h : hist) (n : string) (t : stype) (vs : list cell) : Prop :=
  hget t n h = HOk vs.

(** The ordered list of (name, type) of a history. *)
Definition layout (h : hist) (l : list (string * stype)) : Prop :=
  horder h = map fst l /\ forall n t, In (n, t) l -> find n (htype h) = Some t.

Fixpoint total (l : list (string * stype)) : nat :=
  match l with [] => 0 | (_, t) :: r => ssize t + total r end.
