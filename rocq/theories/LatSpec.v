(** What it means that a lattice keeps its systems. *)
From Coq Require Import String Ascii ZArith List Arith.
From Verif Require Import Base.
From Verif Require Import HistModel TextModel ParseModel TextProofs ParseSpec NemlMathModel RotModel TensorModel CrystModel LatModel.
Import ListNotations.

(** the slip and the twin systems among the calls, in order *)
Definition slips_of (cs : list lcall) : list slip := flat_map (fun c => match c with AddSlip d p => [(d, p)] | _ => [] end) cs.
Definition twins_of (cs : list lcall) : list twin := flat_map (fun c => match c with AddTwin a b c d => [(a, b, c, d)] | _ => [] end) cs.
(** indices that fit an int *)
Definition small_call (c : lcall) : Prop :=
  match c with
  | AddSlip d p => List.Forall int32 d /\ List.Forall int32 p
  | AddTwin a b c d => List.Forall int32 a /\ List.Forall int32 b /\ List.Forall int32 c /\ List.Forall int32 d
  | Ask _ => True end.
(** no slip system after a twin system *)
Definition slips_first (cs : list lcall) : Prop :=
  forall l m d p e1 K1 e2 K2, cs = l ++ AddTwin e1 K1 e2 K2 :: m -> ~ In (AddSlip d p) m.
(** two lattices with the same systems, numbered the same *)
Definition same_systems (a b : lattice) : Prop :=
  la_groups a = la_groups b /\ la_offsets a = la_offsets b /\ la_normals a = la_normals b /\ la_nmap a = la_nmap b.
(** the numbers of the cell have at most six digits, and the group has a name *)
Definition short_shape (s : lshape) : Prop :=
  match s with
  | LGeneral a1 a2 a3 g => List.Forall six_digits a1 /\ List.Forall six_digits a2 /\ List.Forall six_digits a3 /\ blank g = false
  | LCubic a => six_digits a
  | LHCP a c => six_digits a /\ six_digits c end.
Definition named (s : lshape) : Prop := match s with LGeneral _ _ _ g => blank g = false | _ => True end.
(** the shape as read back: six digits of each number *)
Definition round_shape (s : lshape) : lshape :=
  match s with LGeneral a1 a2 a3 g => LGeneral (map round6 a1) (map round6 a2) (map round6 a3) g | LCubic a => LCubic (round6 a) | LHCP a c => LHCP (round6 a) (round6 c) end.
(** the object just built, with no systems *)
Definition bare (s : lshape) : lparams := mkLP s (of_slip []) (of_twin []).
(** the calls that add the listed systems *)
Definition AS (e : slip) : lcall := AddSlip (fst e) (snd e).
Definition AT (e : twin) : lcall := AddTwin (fst (fst (fst e))) (snd (fst (fst e))) (snd (fst e)) (snd e).
