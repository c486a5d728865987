(** Model of replacing the elastic model of a composed model: src/models.cxx:95-104, 174-177, 190-193, 1304-1308,
    1602-1607, 1706-1712; src/damage.cxx:30-35, 327-332, 396-400; src/general_flow.cxx:26-29, 36-42, 338-341;
    src/walker.cxx:5-10, 328-331.

    Objects are reached through shared pointers, so a program is a heap of objects and the pointers between them;
    objects are made after the objects they point to.  An elastic model is the number of its object. *)
From Coq Require Import List Arith.
Import ListNotations.

(** the identity of an object (a shared_ptr), as held by the members of src/models.cxx:1073-1086, 1311-1317 and 1610-1619 and 1304-1308 *)
Definition addr := nat.
(** a LinearElasticModel object, held by shared_ptr (src/models.cxx:95-104) *)
Definition emodel := nat.
(** the classes, with the pointers to other objects that hold an elastic model.
    KLeaf: SmallStrainElasticity, SmallStrainPerfectPlasticity, SmallStrainRateIndependentPlasticity; KRule: TVPFlowRule,
    WalkerKremplSwitchRule; KIntegrator: GeneralIntegrator; KCreep: SmallStrainCreepPlasticity (its creep model holds none);
    KDamaged: NEMLScalarDamagedModel_sd with its damage and its base model; KScalar: a ScalarDamage, whether its
    equations read the elastic model (StandardScalarDamage and WorkDamage do: damage.cxx:1207, 1242, 1268, 1376, 1436, 1471;
    those of ScalarDamageRate do not), and the models of a CombinedDamage; KRegime: KMRegimeModel *)
Inductive kind := KLeaf | KRule | KIntegrator (rule : addr) | KCreep (plastic : addr) | KDamaged (dmodel base : addr)
  | KScalar (reads : bool) (models : list addr) | KRegime (models : list addr).
(** src/models.cxx:95-104, 190-193: the class and its member elastic_ *)
Record obj := mkObj { o_kind : kind; o_elastic : emodel }.
(** all objects built so far, by identity; no code of its own (used for src/models.cxx:190-193) *)
Definition heap := addr -> option obj.
(** assignment to the member elastic_ of one object, src/models.cxx:190-193 *)
Definition put (h : heap) (a : addr) (o : obj) : heap := fun b => if Nat.eqb b a then Some o else h b.
(** elastic_ = emodel *)
(** src/models.cxx:190-193: NEMLModel_sd::set_elastic_model *)
Definition assign (e : emodel) (a : addr) (h : heap) : heap :=
  match h a with Some o => put h a (mkObj (o_kind o) e) | None => h end.

(** the virtual set_elastic_model; a ScalarDamage has none.  [n] bounds the depth of calls *)
(** src/models.cxx:190-193, 1304-1308, 1602-1607, 1706-1712; src/damage.cxx:30-35; src/general_flow.cxx:26-29, 36-42, 338-341; src/walker.cxx:328-331 *)
Fixpoint set_el (n : nat) (e : emodel) (a : addr) (h : heap) : option heap :=
  match n with
  | O => None
  | S n =>
    match h a with
    | None => None
    | Some o =>
      let h' := assign e a h in
      match o_kind o with
      | KLeaf | KRule => Some h'
      | KIntegrator r => set_el n e r h'
      | KCreep q => set_el n e q h'
      | KDamaged _ b => set_el n e b h'
      | KRegime ms => fold_left (fun r m => match r with Some h => set_el n e m h | None => None end) ms (Some h')
      | KScalar _ _ => None
      end
    end
  end.
(** objects have smaller numbers than those that point to them, so this depth is enough *)
(** src/models.cxx:190-193, 1304-1308, 1602-1607, 1706-1712; src/damage.cxx:30-35; src/general_flow.cxx:26-29, 36-42, 338-341; src/walker.cxx:328-331 *)
Definition set_elastic_model (e : emodel) (a : addr) (h : heap) : option heap := set_el (S a) e a h.
(** models.cxx:174-177 elastic() *)
Definition elastic (a : addr) (h : heap) : option emodel := option_map o_elastic (h a).

(** ** Programs: constructors and calls of set_elastic_model.  A constructor stores the elastic model it is given and
    the pointers, and changes nothing else; get_object_parameter throws for objects of the wrong class *)
(** the objects built so far; no code of its own: the programs of a user of the constructors in src/models.cxx *)
Record state := mkState { s_next : addr; s_heap : heap }.
(** no object yet; no code of its own *)
Definition start : state := mkState 0 (fun _ => None).
(** the C++ type of a pointer given to a constructor (include/models.h); no code of its own *)
Definition is_scalar (h : heap) (a : addr) : bool := match h a with Some (mkObj (KScalar _ _) _) => true | _ => false end.
(** the C++ type of a pointer given to a constructor (include/models.h); no code of its own *)
Definition is_rule (h : heap) (a : addr) : bool := match h a with Some (mkObj KRule _) => true | _ => false end.
(** the C++ type of a pointer given to a constructor (include/models.h); no code of its own *)
Definition is_model (h : heap) (a : addr) : bool := match h a with Some (mkObj (KScalar _ _) _) | Some (mkObj KRule _) | None => false | _ => true end.
(** no code of its own: which pointers the constructors accept, from the types in include/models.h and include/damage.h *)
Definition class_ok (h : heap) (k : kind) : bool :=
  match k with
  | KLeaf | KRule => true
  | KIntegrator r => is_rule h r
  | KCreep q => is_model h q
  | KDamaged d b => is_scalar h d && is_model h b
  | KScalar _ ms => forallb (is_scalar h) ms
  | KRegime ms => forallb (is_model h) ms
  end.
(** a call by the user: a constructor, or src/models.cxx:190-193 *)
Inductive op := New (k : kind) (e : emodel) | SetElastic (a : addr) (e : emodel).
(** effect of one call, src/models.cxx:95-104 and 190-193 *)
Definition step (s : state) (o : op) : option state :=
  match o with
  | New k e => if class_ok (s_heap s) k then Some (mkState (S (s_next s)) (put (s_heap s) (s_next s) (mkObj k e))) else None
  | SetElastic a e => if is_model (s_heap s) a then option_map (mkState (s_next s)) (set_elastic_model e a (s_heap s)) else None
  end.
(** effect of a sequence of calls; no code of its own *)
Fixpoint run (s : state) (l : list op) : option state :=
  match l with [] => Some s | o :: l => match step s o with Some s => run s l | None => None end end.

(** ** What a model does depends on the objects it is made of and the elastic models they read.  The elastic model of a
    rate form of damage is not read *)
(** what a model does, as a tree of classes with the elastic models they read; not code *)
Inductive vtree := VNode (name : nat) (reads : option emodel) (children : list vtree).
(** a number for each class; not code *)
Definition tag (k : kind) : nat := match k with KLeaf => 0 | KRule => 1 | KIntegrator _ => 2 | KCreep _ => 3 | KDamaged _ _ => 4 | KScalar true _ => 5 | KScalar false _ => 6 | KRegime _ => 7 end.
(** the pointers to other models, from the members set in src/models.cxx:1073-1086, 1311-1317 and 1610-1619 *)
Definition children (k : kind) : list addr :=
  match k with KLeaf | KRule => [] | KIntegrator r => [r] | KCreep q => [q] | KDamaged d b => [d; b] | KScalar _ ms => ms | KRegime ms => ms end.
(** the elastic model read by an object, src/models.cxx:174-177 *)
Definition reads (o : obj) : option emodel := match o_kind o with KScalar false _ => None | _ => Some (o_elastic o) end.
(** the tree below an object; not code *)
Fixpoint view (n : nat) (h : heap) (a : addr) : option vtree :=
  match n with
  | O => None
  | S n => match h a with
           | None => None
           | Some o => Some (VNode (tag (o_kind o)) (reads o) (map (fun c => match view n h c with Some t => t | None => VNode 8 None [] end) (children (o_kind o))))
           end
  end.
(** the tree below an object; not code *)
Definition behaviour (h : heap) (a : addr) : option vtree := view (S a) h a.
