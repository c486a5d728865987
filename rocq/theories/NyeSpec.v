(** What a user expects of a Nye tensor: it stays in force until it is set again. *)
From Coq Require Import List.
From Verif Require Import Base.
From Verif Require Import RotModel CpModel ScModel NyeModel.
Import ListNotations.

(** a crystal and, as a separate thing, the tensor in force *)
Record ideal := { id_nye : vec; id_q : quat; id_h : vec; id_s : vec; id_d : vec; id_w : vec; id_T : R; id_t : R; id_u : R; id_p : R }.
(** only nine components count *)
Definition nine (a : vec) : vec := fun i => if Nat.ltb i 9 then a i else 0.
(** a step with a given tensor *)
Definition ideal_step fuel lsolve inv (m : single) (o : scopt) (x : ideal) (l : nload) : option ideal :=
  match sc_update fuel lsolve inv (sg_at m (Some (nine (id_nye x)))) o
      (mk_call (id_s x) (id_d x) (id_w x) (id_T x) (id_t x) (id_u x) (id_p x) (id_h x) (id_q x) l) with
  | Some (Some r) => Some {| id_nye := id_nye x; id_q := r_q r; id_h := r_h r; id_s := r_s r; id_d := nl_d l; id_w := nl_w l; id_T := nl_T l; id_t := nl_t l; id_u := r_u r; id_p := r_p r |}
  | _ => None
  end.
Definition ideal_nye (x : ideal) (a : vec) : ideal := {| id_nye := a; id_q := id_q x; id_h := id_h x; id_s := id_s x; id_d := id_d x; id_w := id_w x; id_T := id_T x; id_t := id_t x; id_u := id_u x; id_p := id_p x |}.
Definition ideal_active (x : ideal) (q : quat) : ideal := {| id_nye := id_nye x; id_q := q; id_h := id_h x; id_s := id_s x; id_d := id_d x; id_w := id_w x; id_T := id_T x; id_t := id_t x; id_u := id_u x; id_p := id_p x |}.
Fixpoint ideal_run fuel lsolve inv (m : single) (o : scopt) (ops : list nop) (x : ideal) : option ideal :=
  match ops with
  | [] => Some x
  | ONye a :: r => ideal_run fuel lsolve inv m o r (ideal_nye x a)
  | OActive q :: r => ideal_run fuel lsolve inv m o r (ideal_active x q)
  | OStep l :: r => match ideal_step fuel lsolve inv m o x l with Some y => ideal_run fuel lsolve inv m o r y | None => None end
  end.
(** same stress, internal variables, orientation, energies and loads *)
Definition same_results (use : bool) (x : point) (y : ideal) : Prop :=
  pt_s x = id_s y /\ get_state use (pt_hist x) = id_h y /\ get_q (pt_hist x) 0 = id_q y /\ pt_u x = id_u y /\ pt_p x = id_p y /\
  pt_d x = id_d y /\ pt_w x = id_w y /\ pt_T x = id_T y /\ pt_t x = id_t y.
(** the tensor in the array is the tensor in force *)
Definition same_nye (x : point) (y : ideal) : Prop := forall i, (i < 9)%nat -> pt_hist x (8 + i)%nat = id_nye y i.
Definition both (R : point -> ideal -> Prop) (x : option point) (y : option ideal) : Prop :=
  match x, y with Some a, Some b => R a b | None, None => True | _, _ => False end.
(** a program that sets the tensor before every step ([b]: it is set already) *)
Fixpoint sets_each (b : bool) (ops : list nop) : Prop :=
  match ops with
  | [] => True
  | ONye _ :: r => sets_each true r
  | OActive _ :: r => sets_each b r
  | OStep _ :: r => b = true /\ sets_each false r
  end.
(** the program that clears the tensor after every step *)
Fixpoint clears (ops : list nop) : list nop :=
  match ops with [] => [] | OStep l :: r => OStep l :: ONye vzero :: clears r | x :: r => x :: clears r end.
(** without the calls of update_nye *)
Fixpoint no_nye (ops : list nop) : list nop := match ops with [] => [] | ONye _ :: r => no_nye r | x :: r => x :: no_nye r end.
(** law s is somewhere in the inelastic model *)
Inductive has_law : inel -> slaw -> Prop :=
| hl_asaro : forall n hs h s, In h hs -> In s (hd_parts h) -> has_law (IAsaro n hs) s
| hl_comb : forall l m s, In m l -> has_law m s -> has_law (IComb l) s.
(** the laws with a Nye part: a linear one, and a Voce law whose factor at zero degrees is not zero *)
Definition law_uses (s : slaw) : Prop :=
  match s with SVoce k => k 0 <> 0 | SLinear _ => True | SPlain => False end.
