(** Specification for objects built from several lists (C99) *)
From Verif Require Import Base HardModel LenModel.
From Coq Require Import List Arith.
Import ListNotations.
Open Scope R_scope.

(** no vector is read past its end *)
Definition safe {A} (x : out A) : Prop := x <> Outside.
(** the call is refused with an exception *)
Definition refused {A} (x : out A) : Prop := x = Refused.

(** the backstresses with the first entries of every list, as many as C has *)
Definition first_entries (p : chlists) : chparams :=
  {| ch_nb := length (cl_C p);
     ch_c := fun i => nth i (cl_C p) (fun _ => 0);
     ch_dc := fun _ _ => 0;
     ch_g := fun i => nth i (cl_g p) {| gm := fun _ _ => 0; gm_d := fun _ _ => 0 |};
     ch_A := fun i => nth i (cl_A p) (fun _ => 0);
     ch_a := fun i => nth i (cl_a p) (fun _ => 0) |}.

(** the first cut is not negative and is the smallest *)
Definition cuts_start (cuts : list R) : Prop :=
  match cuts with [] => True | c :: r => 0 <= c /\ List.Forall (Rle c) r end.
(** every threshold is larger than the ones before it *)
Fixpoint rising (gs : list R) : Prop :=
  match gs with [] => True | g :: r => List.Forall (Rlt g) r /\ rising r end.
(** slip systems come first in the lattice, then twins *)
Definition slips_first (ns : nat) (twin : nat -> bool) : Prop := forall k, twin k = Nat.leb ns k.
