(** Model of the parameters of lattices (include/objects.h:35-80, src/cp/crystallography.cxx:243-267, 327-363,
    612-775): construction from parameters, added systems, saving and reloading.  The systems themselves
    are those of [CrystModel], the XML tree that of [ParseModel]. *)
From Coq Require Import String Ascii ZArith List Arith.
From Verif Require Import Base.
From Verif Require Import HistModel TextModel ParseModel NemlMathModel RotModel TensorModel CrystModel.
Import ListNotations.
Open Scope string_scope.
Open Scope list_scope.

(** the parameters that fix the cell and the symmetry: 612-620, 658-666, 701-706 *)
Inductive lshape := LGeneral (a1 a2 a3 : list R) (sclass : text) | LCubic (a : R) | LHCP (a c : R).
(** a std::vector of three doubles as a Vector; no code of its own *)
Definition lvec (l : list R) : vec := fun k => nth k l 0.
(** src/cp/crystallography.cxx:612-623, 658-669, 701-720 *)
Definition shape_cell (s : lshape) : cell :=
  match s with LGeneral a1 a2 a3 _ => {| c1 := lvec a1; c2 := lvec a2; c3 := lvec a3 |} | LCubic a => cubic_cell a | LHCP a c => hcp_cell a c end.
(** src/cp/crystallography.cxx:612-623, 658-669, 701-720: the symmetry group *)
Definition shape_ops (s : lshape) : option (list quat) :=
  symmetry_rotations (match s with LGeneral _ _ _ g => string_of_list_ascii g | LCubic _ => "432" | LHCP _ _ => "622" end).
(** the virtual miller2cart_direction and miller2cart_plane *)
(** src/cp/crystallography.cxx:269-275, 746-751 *)
Definition shape_d (s : lshape) : list Z -> option vec := match s with LHCP _ _ => hcp_direction (shape_cell s) | _ => miller2cart_direction (shape_cell s) end.
(** src/cp/crystallography.cxx:277-283, 753-757 *)
Definition shape_p (s : lshape) : list Z -> option vec := match s with LHCP _ _ => hcp_plane (shape_cell s) | _ => miller2cart_plane (shape_cell s) end.

(** objects.h:53-67 param_type: of its members, one per type, the two that matter here.  A param_type made
    from a value (objects.h:42-46) has that member set and the others empty. *)
Record members := mkMem { mb_slip : list slip; mb_twin : list twin }.
(** src/cp/crystallography.cxx:646-651: a parameter given by a list *)
Definition of_slip (l : list slip) : members := mkMem l [].
(** src/cp/crystallography.cxx:646-651: a parameter given by a list *)
Definition of_twin (l : list twin) : members := mkMem [] l.
(** src/cp/crystallography.cxx:630-644: the ParameterSet *)
Record lparams := mkLP { lp_shape : lshape; lp_slip : members; lp_twin : members }.
(** a lattice object: its ParameterSet, its systems, current_slip_ and current_twin_ *)
(** src/cp/crystallography.cxx:251-267 *)
Record lobj := mkLO { lo_par : lparams; lo_lat : lattice; lo_slip : list slip; lo_twin : list twin }.

(** 327-363 and 365-454: the indices are recorded first; false: an exception, which leaves them recorded *)
(** src/cp/crystallography.cxx:327-363 (add_slip_system) *)
Definition lo_add_slip (ops : list quat) (o : lobj) (d p : list Z) : lobj * bool :=
  let o := mkLO (lo_par o) (lo_lat o) (lo_slip o ++ [(d, p)]) (lo_twin o) in
  match add_slip_system (shape_d (lp_shape (lo_par o))) (shape_p (lp_shape (lo_par o))) ops (lo_lat o) d p with
  | Some L => (mkLO (lo_par o) L (lo_slip o) (lo_twin o), true)
  | None => (o, false)
  end.
(** src/cp/crystallography.cxx:365-454 (add_twin_system) *)
Definition lo_add_twin (ops : list quat) (o : lobj) (e1 K1 e2 K2 : list Z) : lobj * bool :=
  let o := mkLO (lo_par o) (lo_lat o) (lo_slip o) (lo_twin o ++ [(e1, K1, e2, K2)]) in
  match add_twin_system (shape_d (lp_shape (lo_par o))) (shape_p (lp_shape (lo_par o))) ops (lo_lat o) e1 K1 e2 K2 with
  | Some L => (mkLO (lo_par o) L (lo_slip o) (lo_twin o), true)
  | None => (o, false)
  end.
(** the loops 260-266, 713-719; None: the exception leaves the constructor *)
(** src/cp/crystallography.cxx:251-267: the loops of the constructor *)
Fixpoint add_slips (ops : list quat) (l : list slip) (o : lobj) : option lobj :=
  match l with [] => Some o | (d, p) :: l => let r := lo_add_slip ops o d p in if snd r then add_slips ops l (fst r) else None end.
(** src/cp/crystallography.cxx:251-267: the loops of the constructor *)
Fixpoint add_twins (ops : list quat) (l : list twin) (o : lobj) : option lobj :=
  match l with [] => Some o | (e1, K1, e2, K2) :: l => let r := lo_add_twin ops o e1 K1 e2 K2 in if snd r then add_twins ops l (fst r) else None end.
(** 251-267, 612-623, 658-669, 701-720: "slip_systems" is read as list_systems, "twin_systems" as twin_systems *)
Definition lat_new (p : lparams) : option lobj :=
  match shape_ops (lp_shape p) with
  | None => None
  | Some ops => match add_slips ops (mb_slip (lp_slip p)) (mkLO p lattice0 [] []) with
                | None => None
                | Some o => add_twins ops (mb_twin (lp_twin p)) o end
  end.

(** 631-645, 677-688, 727-739: the declared types; 640-641 and 683-684 declare twin_systems as list_systems *)
Definition twin_type (s : lshape) : ptype := match s with LHCP _ _ => PT_twin | _ => PT_slip end.
(** src/cp/crystallography.cxx:625-644, 671-687, 722-739 *)
Definition lat_schema (s : lshape) : schema :=
  (match s with
   | LGeneral _ _ _ _ => [("a1", PT_vec_double, None); ("a2", PT_vec_double, None); ("a3", PT_vec_double, None); ("symmetry_group", PT_object, None)]
   | LCubic _ => [("a", PT_double, None)]
   | LHCP _ _ => [("a", PT_double, None); ("c", PT_double, None)] end)
  ++ [("slip_systems", PT_slip, Some (VSlip [])); ("twin_systems", twin_type s, Some (match twin_type s with PT_twin => VTwin [] | _ => VSlip [] end))].
(** src/cp/crystallography.cxx:625-644, 671-687, 722-739 *)
Definition lat_type (s : lshape) : string := match s with LGeneral _ _ _ _ => "GeneralLattice" | LCubic _ => "CubicLattice" | LHCP _ _ => "HCPLattice" end.
(** src/cp/crystallography.cxx:151-158 SymmetryGroup::parameters *)
Definition lat_factory : factory := mkFactory (fun t =>
  if String.eqb t "GeneralLattice" then Some (lat_schema (LGeneral [] [] [] []))
  else if String.eqb t "CubicLattice" then Some (lat_schema (LCubic 0))
  else if String.eqb t "HCPLattice" then Some (lat_schema (LHCP 0 0))
  else if String.eqb t "SymmetryGroup" then Some [("sclass", PT_string, None)] else None) (fun _ _ => true).

(** 647-652, 690-695, 759-764 current_parameters *)
Definition current_parameters (o : lobj) : lparams := mkLP (lp_shape (lo_par o)) (of_slip (lo_slip o)) (of_twin (lo_twin o)).
(** deparse.cxx:48-95: every parameter is written from the member of its declared type *)
Definition lp_object (p : lparams) : object :=
  Obj (lat_type (lp_shape p))
   ((match lp_shape p with
     | LGeneral a1 a2 a3 g => [("a1", VVecDouble a1); ("a2", VVecDouble a2); ("a3", VVecDouble a3); ("symmetry_group", VObject (Obj "SymmetryGroup" [("sclass", VString g)]))]
     | LCubic a => [("a", VDouble a)]
     | LHCP a c => [("a", VDouble a); ("c", VDouble c)] end)
    ++ [("slip_systems", VSlip (mb_slip (lp_slip p))); ("twin_systems", match twin_type (lp_shape p) with PT_twin => VTwin (mb_twin (lp_twin p)) | _ => VSlip (mb_slip (lp_twin p)) end)]).
(** parse.cxx:175-205 and the constructors: the values read, as members *)
Definition lp_read (o : object) : option lparams :=
  match o with
  | Obj "GeneralLattice" [(_, VVecDouble a1); (_, VVecDouble a2); (_, VVecDouble a3); (_, VObject (Obj _ [(_, VString g)])); (_, VSlip l); (_, VSlip m)] => Some (mkLP (LGeneral a1 a2 a3 g) (of_slip l) (of_slip m))
  | Obj "CubicLattice" [(_, VDouble a); (_, VSlip l); (_, VSlip m)] => Some (mkLP (LCubic a) (of_slip l) (of_slip m))
  | Obj "HCPLattice" [(_, VDouble a); (_, VDouble c); (_, VSlip l); (_, VTwin m)] => Some (mkLP (LHCP a c) (of_slip l) (of_twin m))
  | _ => None
  end.
(** NEMLObject::serialize and get_object_string, pickling included *)
(** src/objects.cxx:20-23 (serialize) *)
Definition lat_save (o : lobj) : node := make_object_node "object" (lp_object (current_parameters o)).
(** src/parse.cxx:27-37 (get_object_string) *)
Definition lat_load (n : node) : option lobj := match get_object lat_factory n with POk x => match lp_read x with Some p => lat_new p | None => None end | PErr _ => None end.

(** what a user does with a lattice; exceptions of the additions are caught and the object used on *)
(** calls by a user of src/cp/crystallography.cxx:327-512; no code of its own *)
Inductive lcall := AddSlip (d p : list Z) | AddTwin (e1 K1 e2 K2 : list Z) | Ask (Q : quat).
(** calls by a user of src/cp/crystallography.cxx:327-512; no code of its own *)
Definition lat_call (hash : quat -> Z) (ops : list quat) (c : lcall) (o : lobj) : lobj * bool :=
  match c with
  | AddSlip d p => lo_add_slip ops o d p
  | AddTwin e1 K1 e2 K2 => lo_add_twin ops o e1 K1 e2 K2
  | Ask Q => (mkLO (lo_par o) (cache_rot hash (lo_lat o) Q) (lo_slip o) (lo_twin o), true)
  end.
(** calls by a user of src/cp/crystallography.cxx:327-512; no code of its own *)
Fixpoint lat_calls (hash : quat -> Z) (ops : list quat) (cs : list lcall) (o : lobj) : lobj * list bool :=
  match cs with [] => (o, []) | c :: cs => let r := lat_call hash ops c o in let q := lat_calls hash ops cs (fst r) in (fst q, snd r :: snd q) end.
