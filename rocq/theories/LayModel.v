(** Model of the store of a material model and of models built from other models: src/models.cxx:28-104,
    156-167, 486-492, 560-568, 797-806, 1120-1131, 1463-1472, 1677-1688; src/damage.cxx:17-28, 142-150, 236-247,
    311-315; src/history.cxx:438-514.  Histories are those of HistModel.v.

    Variable names carry a prefix, a string that set_variable_prefix stores and that every composed model
    hands down before it adds variables; here it is an argument.  What a flow rule or hardening rule adds is
    a list of names, types and initial values. *)
From Coq Require Import String List.
From Verif Require Import Base HistModel.
From Coq Require Import List.
Import ListNotations.
Open Scope string_scope.
Open Scope list_scope.

(** an internal variable with name, type and start, as added in src/models.cxx:797-806 and 1120-1131 *)
Record var := mkVar { v_name : string; v_type : stype; v_init : list R }.
(** SmallStrainElasticity and SmallStrainPerfectPlasticity (no variables), SmallStrainRateIndependentPlasticity and
    GeneralIntegrator (those of the rule); SmallStrainCreepPlasticity; NEMLScalarDamagedModel_sd with the initial
    damage of its damage model; KMRegimeModel with its first and other models *)
(** the classes with populate_state in src/models.cxx:486-488, 797-801, 1120-1125, 1463-1467, 1677-1683 and src/damage.cxx:17-22 *)
Inductive smodel := SLeaf (own : list var) | SCreep (plastic : smodel) | SDamage (d0 : R) (base : smodel) | SRegime (first : smodel) (others : list smodel).

(** models.cxx:161-167: the test is for the name without prefix *)
Definition pop_static (p : string) (h : hist) : hres hist :=
  if hcontains "small_stress" h then HOk h else hadd (p ++ "small_stress")%string TSymmetric h.
(** src/models.cxx:797-801, 1120-1125: the calls of add *)
Fixpoint add_vars (p : string) (l : list var) (h : hist) : hres hist :=
  match l with [] => HOk h | v :: l => hbind (hadd (p ++ v_name v)%string (v_type v) h) (add_vars p l) end.
(** populate_state: models.cxx:486-488, 560-563, 797-801, 1120-1125, 1463-1467, 1677-1683, damage.cxx:17-22, 142-145.
    KMRegimeModel calls populate_hist of its first model, static variables included *)
Fixpoint pop_state (m : smodel) (p : string) (h : hist) : hres hist :=
  match m with
  | SLeaf own => add_vars p own h
  | SCreep q => hbind (pop_state q p h) (hadd (p ++ "plastic_strain")%string TSymmetric)
  | SDamage _ b => hbind (hadd (p ++ "damage")%string TScalar h) (pop_state b p)
  | SRegime m _ => hbind (pop_static p h) (pop_state m p)
  end.
(** models.cxx:28-32 *)
Definition pop_hist (m : smodel) (p : string) (h : hist) : hres hist := hbind (pop_static p h) (pop_state m p).

(** initialised doubles; no code of its own, used for src/models.cxx:156-159 *)
Definition cells (l : list R) : list cell := map Some l.
(** initialised doubles; no code of its own, used for src/models.cxx:156-159 *)
Definition zeros (n : nat) : list R := repeat 0 n.
(** models.cxx:156-159 *)
Definition init_static (p : string) (h : hist) : hres hist := hset TSymmetric (p ++ "small_stress")%string (cells (zeros 6)) h.
(** src/models.cxx:803-806, 1127-1131: the assignments *)
Fixpoint set_vars (p : string) (l : list var) (h : hist) : hres hist :=
  match l with [] => HOk h | v :: l => hbind (hset (v_type v) (p ++ v_name v)%string (cells (v_init v)) h) (set_vars p l) end.
(** init_state: models.cxx:490-492, 565-568, 803-806, 1127-1131, 1469-1472, 1685-1688, damage.cxx:24-28, 147-150.
    KMRegimeModel calls init_hist of its first model, which zeroes the whole history first (34-39) *)
Fixpoint init_state (m : smodel) (p : string) (h : hist) : hres hist :=
  match m with
  | SLeaf own => set_vars p own h
  | SCreep q => hbind (hset TSymmetric (p ++ "plastic_strain")%string (cells (zeros 6)) h) (init_state q p)
  | SDamage d0 b => hbind (hset TScalar (p ++ "damage")%string (cells [d0]) h) (init_state b p)
  | SRegime m _ => hbind (init_static p (hzero h)) (init_state m p)
  end.
(** models.cxx:34-39 *)
Definition init_hist (m : smodel) (p : string) (h : hist) : hres hist := hbind (init_static p (hzero h)) (init_state m p).
(** history.cxx:458-463 *)
Definition init_store (m : smodel) (p : string) : hres hist := hbind (pop_hist m p hempty) (init_hist m p).
(** history.cxx:443-451, 490-495 and models.cxx:74-89: counted in the constructor, while the prefix is empty *)
Definition size_of (r : hres hist) : hres nat := hbind r (fun h => HOk (hsize h)).
(** src/history.cxx:443-451 *)
Definition nstore (m : smodel) : hres nat := size_of (pop_hist m "" hempty).
(** src/models.cxx:74-77 (nstate) *)
Definition nstate (m : smodel) : hres nat := size_of (pop_state m "" hempty).
(** src/models.cxx:79-82 (nstatic): the six stress components of src/models.cxx:156-167 *)
Definition nstatic : nat := 6.
(** models.cxx:91-94, before the names of the components: the names in the cached history *)
Definition names_of (m : smodel) : hres (list string) := hbind (pop_hist m "" hempty) (fun h => HOk (horder h)).

(** ** Where the updates find the variables.  models.cxx:141-154 update_sd hands on the store from nstatic on;
    SmallStrainCreepPlasticity keeps its strain in the first six entries and gives the rest to the plastic model
    (1148, 1153-1156, 1263-1266); the damage model keeps its damage in the first and gives the rest to its base
    (damage.cxx:113-116, 121, 242-246); KMRegimeModel gives the same pointer to one of its models (1661-1674); the
    others use their own variables in the order they add them *)
Fixpoint slots (m : smodel) : list var :=
  match m with
  | SLeaf own => own
  | SCreep q => mkVar "plastic_strain" TSymmetric (zeros 6) :: slots q
  | SDamage d0 b => mkVar "damage" TScalar [d0] :: slots b
  | SRegime m _ => slots m
  end.
(** how many entries of its part of the store an update reads: the leaves nstate() (models.cxx:906-912, 1580-1581), the others
    what they keep and nstate() of the inner model (1255-1266, damage.cxx:242-243); the choice of the regime
    model is [k], and those after the first are counted by nstate() *)
Fixpoint nreads (k : nat) (m : smodel) : hres nat :=
  match m with
  | SLeaf own => nstate m
  | SCreep q => hbind (nstate q) (fun n => HOk (6 + n)%nat)
  | SDamage _ b => hbind (nstate b) (fun n => HOk (1 + n)%nat)
  | SRegime m ms => match k with O => nreads 0 m | S k => match nth_error ms k with Some x => nstate x | None => HErr EUndefined end end
  end.
(** damage.cxx:311-315 get_damage: names of the cached history, with the prefix the model has now *)
Definition get_damage (m : smodel) (p : string) (store : list cell) : hres (list cell) :=
  hbind (pop_hist m "" hempty) (fun h => hget TScalar (p ++ "damage")%string (mkHist (horder h) (hloc h) (htype h) store)).
