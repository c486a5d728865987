(** What the store of a composed model should be. *)
From Coq Require Import String List.
From Verif Require Import Base HistModel LayModel.
From Coq Require Import List.
Import ListNotations.
Open Scope string_scope.
Open Scope list_scope.

Definition sizes (l : list var) : nat := list_sum (map (fun v => ssize (v_type v)) l).
(** initial values of the right length *)
Fixpoint well_formed (m : smodel) : Prop :=
  match m with
  | SLeaf own => List.Forall (fun v => length (v_init v) = ssize (v_type v)) own
  | SCreep q => well_formed q | SDamage _ b => well_formed b | SRegime m _ => well_formed m end.
(** all names different, also from that of the static variable *)
Definition distinct (m : smodel) : Prop := NoDup ("small_stress" :: map v_name (slots m)).
Fixpoint no_regime (m : smodel) : Prop := match m with SLeaf _ => True | SCreep q => no_regime q | SDamage _ b => no_regime b | SRegime _ _ => False end.
(** creep only around models without variables *)
Fixpoint creep_on_stateless (m : smodel) : Prop :=
  match m with SLeaf _ => True | SCreep q => slots q = [] /\ creep_on_stateless q | SDamage _ b => creep_on_stateless b | SRegime m _ => creep_on_stateless m end.
(** the variables as the update finds them in a store *)
Fixpoint found (l : list var) (store : list cell) : list (list cell) :=
  match l with [] => [] | v :: l => firstn (ssize (v_type v)) store :: found l (skipn (ssize (v_type v)) store) end.
Definition seen (m : smodel) (store : list cell) : list (list cell) := found (slots m) (skipn nstatic store).
(** the right start: every variable of the update has its initial value *)
Definition right_start (m : smodel) (store : list cell) : Prop := seen m store = map (fun v => cells (v_init v)) (slots m).
