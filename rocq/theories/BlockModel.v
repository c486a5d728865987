(** Model of src/block.cxx and src/cinterface.cxx.

    The tables are copied literally (generated from the source): each entry is 0, 1, 0.5 or the
    constant s22 = 0.7071067811865476, which the model takes to be 1 / sqrt 2 exactly.
    Arrays of doubles are functions of the position. *)
From Verif Require Import Base.
From Verif Require Import NemlMathModel.
From Verif Require Import NemlMathSpec.
From Verif Require Import PolyModel.
From Coq Require Import List Arith ZArith.
Import ListNotations.

(** an entry of the tables of src/block.cxx:9-138 *)
Inductive ent := E0 | E1 | Es | Eh.
(** src/block.cxx 9 *)
(** src/block.cxx:9-9: the constant *)
Definition s22 : R := / sqrt 2.
(** an entry of the tables of src/block.cxx:9-138 *)
Definition ent_r (e : ent) : R := match e with E0 => 0 | E1 => 1 | Es => s22 | Eh => 1 / 2 end.
(** an entry of the tables of src/block.cxx:9-138 *)
Definition tabv (l : list ent) : vec := fun p => ent_r (nth p l E0).
(** src/block.cxx 12-14 *)
Definition t2m_array : list ent :=
  [E1;E0;E0;E0;E0;E0;E0;E0;E0;E0;E0;Es;E0;E0;E0;E0;Es;E0;E0;E0;E0;E0;E0;Es;E0;E1;E0;E0;E0;E0;E0;E0;E0;Es;E0;E0;
   E0;E0;E0;E0;Es;E0;E0;E0;E0;Es;E0;E0;E0;E0;E1;E0;E0;E0].
(** src/block.cxx 17-19 *)
Definition m2t_array : list ent :=
  [E1;E0;E0;E0;E0;E0;E0;E0;E0;E0;E0;E0;E0;E1;E0;E0;E0;E0;E0;E0;E0;E0;E0;E0;E0;E0;E1;E0;E0;E0;E0;E0;Es;E0;Es;E0;
   E0;E0;Es;E0;E0;E0;Es;E0;E0;E0;Es;E0;Es;E0;E0;E0;E0;E0].
(** src/block.cxx 22-135 *)
Definition m42t4_array : list ent :=
  [E1;E0;E0;E0;E0;E0;E0;E0;E0;E0;E0;E0;E0;E0;E0;E0;E0;E0;E0;E0;E0;E0;E0;E0;E0;E0;E0;E0;E0;E0;E0;E0;E0;E0;E0;E0;
   E0;E0;E0;E0;E0;E0;E0;E0;E0;E0;E0;E0;E0;E0;E0;E0;E0;E0;E0;E0;E0;E0;E0;E0;E0;E0;E0;E0;E0;E0;E0;E0;E0;E0;E0;E0;
   E0;E0;E0;E0;E0;E0;E0;E0;E0;E0;E0;E0;E0;E1;E0;E0;E0;E0;E0;E0;E0;E0;E0;E0;E0;E0;E0;E0;E0;E0;E0;E0;E0;E0;E0;E0;
   E0;E0;E0;E0;E0;E0;E0;E0;E0;E0;E0;E0;E0;E0;E0;E0;E0;E0;E0;E0;E0;E0;E0;E0;E0;E0;E0;E0;E0;E0;E0;E0;E0;E0;E0;E0;
   E0;E0;E0;E0;E0;E0;E0;E0;E0;E0;E0;E0;E0;E0;E0;E0;E0;E0;E0;E0;E0;E0;E0;E0;E0;E0;E1;E0;E0;E0;E0;E0;E0;E0;E0;E0;
   E0;E0;E0;E0;E0;E0;E0;E0;E0;E0;E0;E0;E0;E0;E0;E0;E0;E0;E0;E0;E0;E0;E0;E0;E0;E0;E0;E0;E0;E0;E0;E0;E0;E0;E0;E0;
   E0;E0;E0;E0;E0;E0;E0;E0;E0;E0;E0;E0;E0;E0;E0;E0;E0;E0;E0;E0;E0;E0;E0;E0;E0;E0;E0;E0;E0;E0;E0;E0;Es;E0;Es;E0;
   E0;E0;E0;E0;E0;E0;E0;E0;E0;E0;E0;E0;E0;E0;E0;E0;E0;E0;E0;E0;E0;E0;E0;E0;E0;E0;E0;E0;E0;E0;E0;E0;E0;E0;E0;E0;
   E0;E0;E0;E0;E0;E0;E0;E0;E0;E0;E0;E0;E0;E0;E0;E0;E0;E0;E0;E0;E0;E0;E0;E0;E0;E0;E0;E0;E0;E0;E0;E0;E0;E0;E0;E0;
   E0;E0;Es;E0;E0;E0;Es;E0;E0;E0;E0;E0;E0;E0;E0;E0;E0;E0;E0;E0;E0;E0;E0;E0;E0;E0;E0;E0;E0;E0;E0;E0;E0;E0;E0;E0;
   E0;E0;E0;E0;E0;E0;E0;E0;E0;E0;E0;E0;E0;E0;E0;E0;E0;E0;E0;E0;E0;E0;E0;E0;E0;E0;E0;E0;E0;E0;E0;E0;E0;E0;E0;E0;
   E0;E0;E0;E0;E0;E0;E0;E0;E0;E0;Es;E0;Es;E0;E0;E0;E0;E0;E0;E0;E0;E0;E0;E0;E0;E0;E0;E0;E0;E0;E0;E0;E0;E0;E0;E0;
   E0;E0;E0;E0;E0;E0;E0;E0;E0;E0;E0;E0;E0;E0;E0;E0;E0;E0;E0;E0;E0;E0;E0;E0;E0;E0;E0;E0;E0;E0;E0;E0;E0;E0;E0;E0;
   E0;E0;E0;E0;E0;E0;E0;E0;E0;E0;E0;E0;E0;E0;E0;E0;E0;E0;E0;E0;E0;E0;E0;E0;E0;E0;E0;E0;E0;E0;E0;E0;E0;E0;E0;E0;
   E0;E0;E0;E0;E0;E0;E0;E0;E0;E0;E0;E0;E0;E0;E0;E0;E0;E0;E1;E0;E0;E0;E0;E0;E0;E0;E0;E0;E0;E0;E0;E0;E0;E0;E0;E0;
   E0;E0;E0;E0;E0;E0;E0;E0;E0;E0;E0;E0;E0;E0;E0;E0;E0;E0;E0;E0;E0;E0;E0;E0;E0;E0;E0;E0;E0;E0;E0;E0;E0;E0;E0;E0;
   E0;E0;E0;E0;E0;E0;E0;E0;E0;E0;E0;E0;E0;E0;E0;E0;E0;E0;E0;E0;E0;E0;E0;E0;E0;E0;E0;E0;E0;E0;E0;E1;E0;E0;E0;E0;
   E0;E0;E0;E0;E0;E0;E0;E0;E0;E0;E0;E0;E0;E0;E0;E0;E0;E0;E0;E0;E0;E0;E0;E0;E0;E0;E0;E0;E0;E0;E0;E0;E0;E0;E0;E0;
   E0;E0;E0;E0;E0;E0;E0;E0;E0;E0;E0;E0;E0;E0;E0;E0;E0;E0;E0;E0;E0;E0;E0;E0;E0;E0;E0;E0;E0;E0;E0;E0;E0;E0;E0;E0;
   E0;E0;E0;E0;E0;E0;E0;E0;E1;E0;E0;E0;E0;E0;E0;E0;E0;E0;E0;E0;E0;E0;E0;E0;E0;E0;E0;E0;E0;E0;E0;E0;E0;E0;E0;E0;
   E0;E0;E0;E0;E0;E0;E0;E0;E0;E0;E0;E0;E0;E0;E0;E0;E0;E0;E0;E0;E0;E0;E0;E0;E0;E0;E0;E0;E0;E0;E0;E0;E0;E0;E0;E0;
   E0;E0;E0;E0;E0;E0;E0;E0;E0;E0;E0;E0;E0;E0;Es;E0;Es;E0;E0;E0;E0;E0;E0;E0;E0;E0;E0;E0;E0;E0;E0;E0;E0;E0;E0;E0;
   E0;E0;E0;E0;E0;E0;E0;E0;E0;E0;E0;E0;E0;E0;E0;E0;E0;E0;E0;E0;E0;E0;E0;E0;E0;E0;E0;E0;E0;E0;E0;E0;E0;E0;E0;E0;
   E0;E0;E0;E0;E0;E0;E0;E0;E0;E0;E0;E0;E0;E0;E0;E0;E0;E0;E0;E0;Es;E0;E0;E0;Es;E0;E0;E0;E0;E0;E0;E0;E0;E0;E0;E0;
   E0;E0;E0;E0;E0;E0;E0;E0;E0;E0;E0;E0;E0;E0;E0;E0;E0;E0;E0;E0;E0;E0;E0;E0;E0;E0;E0;E0;E0;E0;E0;E0;E0;E0;E0;E0;
   E0;E0;E0;E0;E0;E0;E0;E0;E0;E0;E0;E0;E0;E0;E0;E0;E0;E0;E0;E0;E0;E0;E0;E0;E0;E0;E0;E0;Es;E0;Es;E0;E0;E0;E0;E0;
   E0;E0;E0;E0;E0;E0;E0;E0;E0;E0;E0;E0;E0;E0;E0;E0;E0;E0;E0;E0;E0;E0;E0;E0;E0;E0;E0;E0;E0;E0;E0;E0;E0;E0;E0;E0;
   E0;E0;E0;E0;E0;E0;E0;E0;E0;E0;E0;E0;E0;E0;E0;E0;E0;E0;E0;E0;E0;E0;E0;E0;E0;E0;E0;E0;E0;E0;E0;E0;E0;E0;E0;E0;
   E0;E0;E0;E0;E0;E0;E0;E0;E0;E0;E0;E0;E0;E0;E0;E0;E0;E0;E0;E0;E0;E0;E0;E0;E0;E0;E0;E0;E0;E0;E0;E0;E0;E0;E0;E0;
   E1;E0;E0;E0;E0;E0;E0;E0;E0;E0;E0;E0;E0;E0;E0;E0;E0;E0;E0;E0;E0;E0;E0;E0;E0;E0;E0;E0;E0;E0;E0;E0;E0;E0;E0;E0;
   E0;E0;E0;E0;E0;E0;E0;E0;E0;E0;E0;E0;E0;E0;E0;E0;E0;E0;E0;E0;E0;E0;E0;E0;E0;E0;E0;E0;E0;E0;E0;E0;E0;E0;E0;E0;
   E0;E0;E0;E0;E0;E0;E0;E0;E0;E0;E0;E0;E0;E1;E0;E0;E0;E0;E0;E0;E0;E0;E0;E0;E0;E0;E0;E0;E0;E0;E0;E0;E0;E0;E0;E0;
   E0;E0;E0;E0;E0;E0;E0;E0;E0;E0;E0;E0;E0;E0;E0;E0;E0;E0;E0;E0;E0;E0;E0;E0;E0;E0;E0;E0;E0;E0;E0;E0;E0;E0;E0;E0;
   E0;E0;E0;E0;E0;E0;E0;E0;E0;E0;E0;E0;E0;E0;E0;E0;E0;E0;E0;E0;E0;E0;E0;E0;E0;E0;E1;E0;E0;E0;E0;E0;E0;E0;E0;E0;
   E0;E0;E0;E0;E0;E0;E0;E0;E0;E0;E0;E0;E0;E0;E0;E0;E0;E0;E0;E0;E0;E0;E0;E0;E0;E0;E0;E0;E0;E0;E0;E0;E0;E0;E0;E0;
   E0;E0;E0;E0;E0;E0;E0;E0;E0;E0;E0;E0;E0;E0;E0;E0;E0;E0;E0;E0;E0;E0;E0;E0;E0;E0;E0;E0;E0;E0;E0;E0;Es;E0;Es;E0;
   E0;E0;E0;E0;E0;E0;E0;E0;E0;E0;E0;E0;E0;E0;E0;E0;E0;E0;E0;E0;E0;E0;E0;E0;E0;E0;E0;E0;E0;E0;E0;E0;E0;E0;E0;E0;
   E0;E0;E0;E0;E0;E0;E0;E0;E0;E0;E0;E0;E0;E0;E0;E0;E0;E0;E0;E0;E0;E0;E0;E0;E0;E0;E0;E0;E0;E0;E0;E0;E0;E0;E0;E0;
   E0;E0;Es;E0;E0;E0;Es;E0;E0;E0;E0;E0;E0;E0;E0;E0;E0;E0;E0;E0;E0;E0;E0;E0;E0;E0;E0;E0;E0;E0;E0;E0;E0;E0;E0;E0;
   E0;E0;E0;E0;E0;E0;E0;E0;E0;E0;E0;E0;E0;E0;E0;E0;E0;E0;E0;E0;E0;E0;E0;E0;E0;E0;E0;E0;E0;E0;E0;E0;E0;E0;E0;E0;
   E0;E0;E0;E0;E0;E0;E0;E0;E0;E0;Es;E0;Es;E0;E0;E0;E0;E0;E0;E0;E0;E0;E0;E0;E0;E0;E0;E0;E0;E0;E0;E0;E0;E0;E0;E0;
   E0;E0;E0;E0;E0;E0;E0;E0;E0;E0;E0;E0;E0;E0;E0;E0;E0;E0;E0;E0;E0;E0;E0;E0;E0;E0;E0;Es;E0;E0;E0;E0;E0;E0;E0;E0;
   E0;E0;E0;E0;E0;E0;E0;E0;E0;Es;E0;E0;E0;E0;E0;E0;E0;E0;E0;E0;E0;E0;E0;E0;E0;E0;E0;E0;E0;E0;E0;E0;E0;E0;E0;E0;
   E0;E0;E0;E0;E0;E0;E0;E0;E0;E0;E0;E0;E0;E0;E0;E0;E0;E0;E0;E0;E0;E0;E0;E0;E0;E0;E0;E0;E0;E0;E0;E0;E0;E0;E0;E0;
   E0;E0;E0;E0;Es;E0;E0;E0;E0;E0;E0;E0;E0;E0;E0;E0;E0;E0;E0;E0;E0;E0;Es;E0;E0;E0;E0;E0;E0;E0;E0;E0;E0;E0;E0;E0;
   E0;E0;E0;E0;E0;E0;E0;E0;E0;E0;E0;E0;E0;E0;E0;E0;E0;E0;E0;E0;E0;E0;E0;E0;E0;E0;E0;E0;E0;E0;E0;E0;E0;E0;E0;E0;
   E0;E0;E0;E0;E0;E0;E0;E0;E0;E0;E0;E0;E0;E0;E0;E0;E0;Es;E0;E0;E0;E0;E0;E0;E0;E0;E0;E0;E0;E0;E0;E0;E0;E0;E0;Es;
   E0;E0;E0;E0;E0;E0;E0;E0;E0;E0;E0;E0;E0;E0;E0;E0;E0;E0;E0;E0;E0;E0;E0;E0;E0;E0;E0;E0;E0;E0;E0;E0;E0;E0;E0;E0;
   E0;E0;E0;E0;E0;E0;E0;E0;E0;E0;E0;E0;E0;E0;E0;E0;E0;E0;E0;E0;E0;E0;E0;Eh;E0;Eh;E0;E0;E0;E0;E0;E0;E0;E0;E0;E0;
   E0;E0;E0;E0;E0;Eh;E0;Eh;E0;E0;E0;E0;E0;E0;E0;E0;E0;E0;E0;E0;E0;E0;E0;E0;E0;E0;E0;E0;E0;E0;E0;E0;E0;E0;E0;E0;
   E0;E0;E0;E0;E0;E0;E0;E0;E0;E0;E0;E0;E0;E0;E0;E0;E0;E0;E0;E0;E0;E0;E0;E0;E0;E0;E0;E0;E0;Eh;E0;E0;E0;Eh;E0;E0;
   E0;E0;E0;E0;E0;E0;E0;E0;E0;E0;E0;Eh;E0;E0;E0;Eh;E0;E0;E0;E0;E0;E0;E0;E0;E0;E0;E0;E0;E0;E0;E0;E0;E0;E0;E0;E0;
   E0;E0;E0;E0;E0;E0;E0;E0;E0;E0;E0;E0;E0;E0;E0;E0;E0;E0;E0;E0;E0;E0;E0;E0;E0;E0;E0;E0;E0;E0;E0;E0;E0;E0;E0;E0;
   E0;Eh;E0;Eh;E0;E0;E0;E0;E0;E0;E0;E0;E0;E0;E0;E0;E0;E0;E0;Eh;E0;Eh;E0;E0;E0;E0;E0;E0;E0;E0;E0;E0;E0;E0;E0;E0;
   E0;E0;E0;E0;E0;E0;E0;E0;E0;E0;E0;E0;E0;E0;E0;E0;E0;E0;Es;E0;E0;E0;E0;E0;E0;E0;E0;E0;E0;E0;E0;E0;E0;E0;E0;E0;
   E0;E0;E0;E0;E0;E0;E0;E0;E0;E0;E0;E0;E0;E0;E0;E0;E0;E0;Es;E0;E0;E0;E0;E0;E0;E0;E0;E0;E0;E0;E0;E0;E0;E0;E0;E0;
   E0;E0;E0;E0;E0;E0;E0;E0;E0;E0;E0;E0;E0;E0;E0;E0;E0;E0;E0;E0;E0;E0;E0;E0;E0;E0;E0;E0;E0;E0;E0;Es;E0;E0;E0;E0;
   E0;E0;E0;E0;E0;E0;E0;E0;E0;E0;E0;E0;E0;E0;E0;E0;E0;E0;E0;E0;E0;E0;E0;E0;E0;E0;E0;E0;E0;E0;E0;Es;E0;E0;E0;E0;
   E0;E0;E0;E0;E0;E0;E0;E0;E0;E0;E0;E0;E0;E0;E0;E0;E0;E0;E0;E0;E0;E0;E0;E0;E0;E0;E0;E0;E0;E0;E0;E0;E0;E0;E0;E0;
   E0;E0;E0;E0;E0;E0;E0;E0;Es;E0;E0;E0;E0;E0;E0;E0;E0;E0;E0;E0;E0;E0;E0;E0;E0;E0;E0;E0;E0;E0;E0;E0;E0;E0;E0;E0;
   E0;E0;E0;E0;E0;E0;E0;E0;Es;E0;E0;E0;E0;E0;E0;E0;E0;E0;E0;E0;E0;E0;E0;E0;E0;E0;E0;E0;E0;E0;E0;E0;E0;E0;E0;E0;
   E0;E0;E0;E0;E0;E0;E0;E0;E0;E0;E0;E0;E0;E0;Eh;E0;Eh;E0;E0;E0;E0;E0;E0;E0;E0;E0;E0;E0;E0;E0;E0;E0;E0;E0;E0;E0;
   E0;E0;E0;E0;E0;E0;E0;E0;E0;E0;E0;E0;E0;E0;Eh;E0;Eh;E0;E0;E0;E0;E0;E0;E0;E0;E0;E0;E0;E0;E0;E0;E0;E0;E0;E0;E0;
   E0;E0;E0;E0;E0;E0;E0;E0;E0;E0;E0;E0;E0;E0;E0;E0;E0;E0;E0;E0;Eh;E0;E0;E0;Eh;E0;E0;E0;E0;E0;E0;E0;E0;E0;E0;E0;
   E0;E0;E0;E0;E0;E0;E0;E0;E0;E0;E0;E0;E0;E0;E0;E0;E0;E0;E0;E0;Eh;E0;E0;E0;Eh;E0;E0;E0;E0;E0;E0;E0;E0;E0;E0;E0;
   E0;E0;E0;E0;E0;E0;E0;E0;E0;E0;E0;E0;E0;E0;E0;E0;E0;E0;E0;E0;E0;E0;E0;E0;E0;E0;E0;E0;Eh;E0;Eh;E0;E0;E0;E0;E0;
   E0;E0;E0;E0;E0;E0;E0;E0;E0;E0;E0;E0;E0;E0;E0;E0;E0;E0;E0;E0;E0;E0;E0;E0;E0;E0;E0;E0;Eh;E0;Eh;E0;E0;E0;E0;E0;
   E0;E0;E0;E0;E0;E0;E0;E0;E0;E0;E0;E0;E0;E0;E0;E0;E0;E0;E0;E0;E0;E0;E0;E0;E0;E0;E0;Es;E0;E0;E0;E0;E0;E0;E0;E0;
   E0;E0;E0;E0;E0;E0;E0;E0;E0;Es;E0;E0;E0;E0;E0;E0;E0;E0;E0;E0;E0;E0;E0;E0;E0;E0;E0;E0;E0;E0;E0;E0;E0;E0;E0;E0;
   E0;E0;E0;E0;E0;E0;E0;E0;E0;E0;E0;E0;E0;E0;E0;E0;E0;E0;E0;E0;E0;E0;E0;E0;E0;E0;E0;E0;E0;E0;E0;E0;E0;E0;E0;E0;
   E0;E0;E0;E0;Es;E0;E0;E0;E0;E0;E0;E0;E0;E0;E0;E0;E0;E0;E0;E0;E0;E0;Es;E0;E0;E0;E0;E0;E0;E0;E0;E0;E0;E0;E0;E0;
   E0;E0;E0;E0;E0;E0;E0;E0;E0;E0;E0;E0;E0;E0;E0;E0;E0;E0;E0;E0;E0;E0;E0;E0;E0;E0;E0;E0;E0;E0;E0;E0;E0;E0;E0;E0;
   E0;E0;E0;E0;E0;E0;E0;E0;E0;E0;E0;E0;E0;E0;E0;E0;E0;Es;E0;E0;E0;E0;E0;E0;E0;E0;E0;E0;E0;E0;E0;E0;E0;E0;E0;Es;
   E0;E0;E0;E0;E0;E0;E0;E0;E0;E0;E0;E0;E0;E0;E0;E0;E0;E0;E0;E0;E0;E0;E0;E0;E0;E0;E0;E0;E0;E0;E0;E0;E0;E0;E0;E0;
   E0;E0;E0;E0;E0;E0;E0;E0;E0;E0;E0;E0;E0;E0;E0;E0;E0;E0;E0;E0;E0;E0;E0;Eh;E0;Eh;E0;E0;E0;E0;E0;E0;E0;E0;E0;E0;
   E0;E0;E0;E0;E0;Eh;E0;Eh;E0;E0;E0;E0;E0;E0;E0;E0;E0;E0;E0;E0;E0;E0;E0;E0;E0;E0;E0;E0;E0;E0;E0;E0;E0;E0;E0;E0;
   E0;E0;E0;E0;E0;E0;E0;E0;E0;E0;E0;E0;E0;E0;E0;E0;E0;E0;E0;E0;E0;E0;E0;E0;E0;E0;E0;E0;E0;Eh;E0;E0;E0;Eh;E0;E0;
   E0;E0;E0;E0;E0;E0;E0;E0;E0;E0;E0;Eh;E0;E0;E0;Eh;E0;E0;E0;E0;E0;E0;E0;E0;E0;E0;E0;E0;E0;E0;E0;E0;E0;E0;E0;E0;
   E0;E0;E0;E0;E0;E0;E0;E0;E0;E0;E0;E0;E0;E0;E0;E0;E0;E0;E0;E0;E0;E0;E0;E0;E0;E0;E0;E0;E0;E0;E0;E0;E0;E0;E0;E0;
   E0;Eh;E0;Eh;E0;E0;E0;E0;E0;E0;E0;E0;E0;E0;E0;E0;E0;E0;E0;Eh;E0;Eh;E0;E0;E0;E0;E0;E0;E0;E0;E0;E0;E0;E0;E0;E0;
   E0;E0;E0;E0;E0;E0;E0;E0;E0;E0;E0;E0;E0;E0;E0;E0;E0;E0;E0;E0;E0;E0;E0;E0;E0;E0;E0;E0;E0;E0;E0;E0;E0;E0;E0;E0].

(** mat_mat (src/math/nemlmath.cxx 894-898): C (m x n) = A (m x k) B (k x n), row major; dgemm is
    taken as exact, and writes exactly the m n places of C. *)
Definition mat_mat (m n k : nat) (A B C : vec) : vec := fun p =>
  if Nat.ltb p (m * n) then rsum k (fun l => A (p / n * k + l)%nat * B (l * n + p mod n)%nat) else C p.
(** src/block.cxx 192-211 *)
Definition t2m (n : nat) (tensor mandel : vec) : vec := mat_mat n 6 9 tensor (tabv t2m_array) mandel.
(** src/block.cxx:201-206 (m2t) *)
Definition m2t (n : nat) (mandel tensor : vec) : vec := mat_mat n 9 6 mandel (tabv m2t_array) tensor.
(** src/block.cxx:208-213 (m42t4) *)
Definition m42t4 (n : nat) (mandel tensor : vec) : vec := mat_mat n 81 36 mandel (tabv m42t4_array) tensor.

(** One point: the arguments of NEMLModel::update_sd, and what it writes.  A call that throws a
    NEMLError (second component false) may have written anything before. *)
(** a call of update_sd, as made in src/block.cxx:140-192 *)
Record pin := { i_e1 : vec; i_e0 : vec; i_T1 : R; i_T0 : R; i_t1 : R; i_t0 : R; i_s0 : vec; i_h0 : vec; i_u0 : R; i_p0 : R }.
(** a call of update_sd, as made in src/block.cxx:140-192 *)
Record pout := { r_s : vec; r_h : vec; r_A : vec; r_u : R; r_p : R }.
(** a call of update_sd, as made in src/block.cxx:140-192 *)
Definition pmodel := pin -> pout * bool.
(** The arrays block_evaluate reads ... *)
(** src/block.cxx:140-192 (block_evaluate): its arguments *)
Record kin := { k_e1 : vec; k_e0 : vec; k_T1 : vec; k_T0 : vec; k_t1 : R; k_t0 : R; k_s0 : vec; k_h0 : vec; k_u0 : vec; k_p0 : vec }.
(** ... and writes: s (n x 3 x 3), h, A (n x 3 x 3 x 3 x 3), u, p.  The local arrays are s (n x 6) and A (n x 36). *)
Record kout := { w_s : vec; w_h : vec; w_A : vec; w_u : vec; w_p : vec }.

(** src/block.cxx 163-166 *)
Definition point (nh : nat) (b : kin) (e1 e0 s0 : vec) (i : nat) : pin :=
  {| i_e1 := part 6 i e1; i_e0 := part 6 i e0; i_T1 := k_T1 b i; i_T0 := k_T0 b i; i_t1 := k_t1 b; i_t0 := k_t0 b;
     i_s0 := part 6 i s0; i_h0 := part nh i (k_h0 b); i_u0 := k_u0 b i; i_p0 := k_p0 b i |}.
(** one iteration of the loop (161-171); [failed] is or-reduced over the threads *)
Definition block_one (m : pmodel) (nh : nat) (args : nat -> pin) (st : kout * bool) (i : nat) : kout * bool :=
  let r := m (args i) in let o := fst st in
  ({| w_s := write 6 i (r_s (fst r)) (w_s o); w_h := write nh i (r_h (fst r)) (w_h o); w_A := write 36 i (r_A (fst r)) (w_A o);
      w_u := write 1 i (fun _ => r_u (fst r)) (w_u o); w_p := write 1 i (fun _ => r_p (fst r)) (w_p o) |}, orb (snd st) (negb (snd r))).
(** block_evaluate (138-190): the crystals run in the given order; [loc] is the content of the
    freshly allocated local arrays.  It returns nothing and throws nothing: the result is the arrays. *)
Definition block (m : pmodel) (nh n : nat) (order : list nat) (b : kin) (loc : vec) (o : kout) : kout :=
  let args := point nh b (t2m n (k_e1 b) loc) (t2m n (k_e0 b) loc) (t2m n (k_s0 b) loc) in
  let st := fold_left (block_one m nh args) order ({| w_s := loc; w_h := w_h o; w_A := loc; w_u := w_u o; w_p := w_p o |}, false) in
  let l := fst st in
  {| w_s := if snd st then w_s o else m2t n (w_s l) (w_s o); w_h := w_h l;
     w_A := if snd st then w_A o else m42t4 n (w_A l) (w_A o); w_u := w_u l; w_p := w_p l |}.

(** *** The C interface (src/cinterface.cxx).  The C++ call inside either returns a value or throws;
    the result is what is returned, if anything, and *ier afterwards. *)
(** how the call inside a C function ends, src/cinterface.cxx; no code of its own *)
Inductive thrown (A : Type) := Returns (a : A) | Throws.
Arguments Returns {A} a.
Arguments Throws {A}.
(** create_nemlmodel (4-17); None = NULL *)
Definition c_create {A} (r : thrown A) (ier : Z) : option A * Z := match r with Returns a => (Some a, 0%Z) | Throws => (None, (-1)%Z) end.
(** destroy_nemlmodel (19-28) *)
Definition c_destroy (r : thrown unit) (ier : Z) : Z := match r with Returns _ => 0%Z | Throws => (-1)%Z end.
(** elastic_strains_nemlmodel (40-50), init_store_nemlmodel (62-70), update_sd_nemlmodel (72-89):
    all three have the same shape *)
Definition c_elastic_strains (r : thrown unit) (ier : Z) : Z := match r with Returns _ => ier | Throws => (-1)%Z end.
(** src/cinterface.cxx:62-70 (init_store_nemlmodel) *)
Definition c_init_store (r : thrown unit) (ier : Z) : Z := match r with Returns _ => ier | Throws => (-1)%Z end.
(** src/cinterface.cxx:72-89 (update_sd_nemlmodel) *)
Definition c_update_sd (r : thrown unit) (ier : Z) : Z := match r with Returns _ => ier | Throws => (-1)%Z end.
(** nstore_nemlmodel (52-60), alpha_nemlmodel (30-38) *)
Definition c_nstore (r : thrown nat) : Z := match r with Returns n => Z.of_nat n | Throws => (-1)%Z end.
(** src/cinterface.cxx:30-38 (alpha_nemlmodel) *)
Definition c_alpha (r : thrown R) : R := match r with Returns a => a | Throws => -1 end.
