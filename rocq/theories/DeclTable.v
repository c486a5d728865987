(** The classes of NEML as data: for each registered class what its type(), parameters(),
    initialize() and constructors say, copied from the lines of /repo cited beside it.
    A read written prefix("n") in src/walker.cxx is entered as "n": the prefix is empty while
    an object is made (src/history.cxx:438-439, 480-483).  IsoJ2 and IsoJ2I1 also construct the
    surface they wrap from the same parameters (include/surfaces.h:62-67). *)
From Coq Require Import String ZArith List.
From Verif Require Import Base.
From Verif Require Import DeclModel.
Import ListNotations.
Local Open Scope string_scope.
Local Open Scope Z_scope.

(** include/cp/crystaldamage.h:123 registered; src/cp/crystaldamage.cxx:42 type();
    src/cp/crystaldamage.cxx:47 initialize(); src/cp/crystaldamage.cxx:52 parameters();
    constructor src/cp/crystaldamage.cxx:36 *)
Definition t_NilDamageModel : cls := mkCls "NilDamageModel" "NilDamageModel" "NilDamageModel" "NilDamageModel" [] [].

(** include/cp/crystaldamage.h:185 registered; src/cp/crystaldamage.cxx:151 type();
    src/cp/crystaldamage.cxx:156 initialize(); src/cp/crystaldamage.cxx:161 parameters(),
    parameters added at lines 165,166,167,168; constructor src/cp/crystaldamage.cxx:138, reads
    at src/cp/crystaldamage.cxx:140,141,142,143 *)
Definition t_PlanarDamageModel : cls := mkCls "PlanarDamageModel" "PlanarDamageModel" "PlanarDamageModel" "PlanarDamageModel"
     [mkDecl "damage" DTobj None;
      mkDecl "shear_transform" DTobj None;
      mkDecl "normal_transform" DTobj None;
      mkDecl "lattice" DTobj None]
     [("damage", Object "SlipPlaneDamage");
      ("shear_transform", Object "TransformationFunction");
      ("normal_transform", Object "TransformationFunction");
      ("lattice", Object "Lattice")].

(** include/cp/crystaldamage.h:263 registered; src/cp/crystaldamage.cxx:450 type();
    src/cp/crystaldamage.cxx:455 initialize(); src/cp/crystaldamage.cxx:460 parameters();
    constructor src/cp/crystaldamage.cxx:444 *)
Definition t_WorkPlaneDamage : cls := mkCls "WorkPlaneDamage" "WorkPlaneDamage" "WorkPlaneDamage" "WorkPlaneDamage" [] [].

(** include/cp/crystaldamage.h:304 registered; src/cp/crystaldamage.cxx:534 type();
    src/cp/crystaldamage.cxx:539 initialize(); src/cp/crystaldamage.cxx:545 parameters(),
    parameters added at lines 549,550,551; constructor src/cp/crystaldamage.cxx:525, reads at
    src/cp/crystaldamage.cxx:527,528,529 *)
Definition t_SigmoidTransformation : cls := mkCls "SigmoidTransformation" "SigmoidTransformation" "SigmoidTransformation" "SigmoidTransformation"
     [mkDecl "c" DTdouble None;
      mkDecl "beta" DTdouble None;
      mkDecl "cut" DTdouble (Some (Ddouble 1 0))]
     [("c", Plain DTdouble);
      ("beta", Plain DTdouble);
      ("cut", Plain DTdouble)].

(** include/cp/crystaldamage.h:329 registered; src/cp/crystaldamage.cxx:598 type();
    src/cp/crystaldamage.cxx:603 initialize(); src/cp/crystaldamage.cxx:609 parameters(),
    parameters added at lines 613; constructor src/cp/crystaldamage.cxx:591, reads at
    src/cp/crystaldamage.cxx:593 *)
Definition t_SwitchTransformation : cls := mkCls "SwitchTransformation" "SwitchTransformation" "SwitchTransformation" "SwitchTransformation"
     [mkDecl "base" DTobj None]
     [("base", Object "TransformationFunction")].

(** include/cp/crystallography.h:48 registered; src/cp/crystallography.cxx:146 type();
    src/cp/crystallography.cxx:160 initialize(); src/cp/crystallography.cxx:151 parameters(),
    parameters added at lines 155; constructor src/cp/crystallography.cxx:134, reads at
    src/cp/crystallography.cxx:136 *)
Definition t_SymmetryGroup : cls := mkCls "SymmetryGroup" "SymmetryGroup" "SymmetryGroup" "SymmetryGroup"
     [mkDecl "sclass" DTstring None]
     [("sclass", Plain DTstring)].

(** include/cp/crystallography.h:201 registered; src/cp/crystallography.cxx:625 type();
    src/cp/crystallography.cxx:653 initialize(); src/cp/crystallography.cxx:630 parameters(),
    parameters added at lines 634,635,636,637,638,640; constructor
    src/cp/crystallography.cxx:612, reads at
    src/cp/crystallography.cxx:615,616,617,618,619,620 *)
Definition t_GeneralLattice : cls := mkCls "GeneralLattice" "GeneralLattice" "GeneralLattice" "GeneralLattice"
     [mkDecl "a1" DTvecdouble None;
      mkDecl "a2" DTvecdouble None;
      mkDecl "a3" DTvecdouble None;
      mkDecl "symmetry_group" DTobj None;
      mkDecl "slip_systems" DTslip (Some (Dslip));
      mkDecl "twin_systems" DTslip (Some (Dtwin))]
     [("a1", Plain DTvecdouble);
      ("a2", Plain DTvecdouble);
      ("a3", Plain DTvecdouble);
      ("symmetry_group", Object "SymmetryGroup");
      ("slip_systems", Plain DTslip);
      ("twin_systems", Plain DTtwin)].

(** include/cp/crystallography.h:220 registered; src/cp/crystallography.cxx:671 type();
    src/cp/crystallography.cxx:696 initialize(); src/cp/crystallography.cxx:676 parameters(),
    parameters added at lines 680,681,683; constructor src/cp/crystallography.cxx:658, reads
    at src/cp/crystallography.cxx:661,662,663,665,666 *)
Definition t_CubicLattice : cls := mkCls "CubicLattice" "CubicLattice" "CubicLattice" "CubicLattice"
     [mkDecl "a" DTdouble None;
      mkDecl "slip_systems" DTslip (Some (Dslip));
      mkDecl "twin_systems" DTslip (Some (Dtwin))]
     [("a", Plain DTdouble);
      ("a", Plain DTdouble);
      ("a", Plain DTdouble);
      ("slip_systems", Plain DTslip);
      ("twin_systems", Plain DTtwin)].

(** include/cp/crystallography.h:246 registered; src/cp/crystallography.cxx:722 type();
    src/cp/crystallography.cxx:741 initialize(); src/cp/crystallography.cxx:727 parameters(),
    parameters added at lines 731,732,733,735; constructor src/cp/crystallography.cxx:701,
    reads at src/cp/crystallography.cxx:704,705,706,709,710 *)
Definition t_HCPLattice : cls := mkCls "HCPLattice" "HCPLattice" "HCPLattice" "HCPLattice"
     [mkDecl "a" DTdouble None;
      mkDecl "c" DTdouble None;
      mkDecl "slip_systems" DTslip (Some (Dslip));
      mkDecl "twin_systems" DTtwin (Some (Dtwin))]
     [("a", Plain DTdouble);
      ("a", Plain DTdouble);
      ("a", Plain DTdouble);
      ("a", Plain DTdouble);
      ("c", Plain DTdouble);
      ("slip_systems", Plain DTslip);
      ("twin_systems", Plain DTtwin)].

(** include/cp/generalizedhucocks.h:31 registered; include/cp/generalizedhucocks.h:19 type();
    include/cp/generalizedhucocks.h:20 initialize(); src/cp/generalizedhucocks.cxx:15
    parameters(), parameters added at lines 20,21,22; constructor
    src/cp/generalizedhucocks.cxx:7, reads at src/cp/generalizedhucocks.cxx:9,10,11 *)
Definition t_GeneralizedHuCocksSpecies : cls := mkCls "GeneralizedHuCocksSpecies" "GeneralizedHuCocksSpecies" "GeneralizedHuCocksSpecies" "GeneralizedHuCocksSpecies"
     [mkDecl "composition" DTstring None;
      mkDecl "c0" DTdouble None;
      mkDecl "ceq" DTobj None]
     [("composition", Plain DTstring);
      ("c0", Plain DTdouble);
      ("ceq", Object "Interpolate")].

(** include/cp/generalizedhucocks.h:74 registered; include/cp/generalizedhucocks.h:38 type();
    include/cp/generalizedhucocks.h:39 initialize(); src/cp/generalizedhucocks.cxx:50
    parameters(), parameters added at lines 55,56,57,58,59,60,61,62,63,64,65,67,68,69,70;
    constructor src/cp/generalizedhucocks.cxx:27, reads at
    src/cp/generalizedhucocks.cxx:30,31,32,33,34,35,36,37,38,39,40,42,43,44,45 *)
Definition t_GeneralizedHuCocksPrecipitate : cls := mkCls "GeneralizedHuCocksPrecipitate" "GeneralizedHuCocksPrecipitate" "GeneralizedHuCocksPrecipitate" "GeneralizedHuCocksPrecipitate"
     [mkDecl "composition" DTstring None;
      mkDecl "cp" DTvecobj None;
      mkDecl "am" DTdouble None;
      mkDecl "Vm" DTdouble None;
      mkDecl "D0" DTdouble None;
      mkDecl "Q0" DTdouble None;
      mkDecl "N0" DTdouble None;
      mkDecl "chi" DTdouble None;
      mkDecl "Cf" DTobj None;
      mkDecl "species" DTstring None;
      mkDecl "rate" DTstring None;
      mkDecl "r_init" DTdouble (Some (Ddouble 1 (-9)));
      mkDecl "N_init" DTdouble (Some (Ddouble 1 11));
      mkDecl "rs" DTdouble (Some (Ddouble 1 (-9)));
      mkDecl "Ns" DTdouble (Some (Ddouble 1 12))]
     [("composition", Plain DTstring);
      ("species", Plain DTstring);
      ("rate", Plain DTstring);
      ("cp", Objects "Interpolate");
      ("am", Plain DTdouble);
      ("Vm", Plain DTdouble);
      ("D0", Plain DTdouble);
      ("Q0", Plain DTdouble);
      ("N0", Plain DTdouble);
      ("chi", Plain DTdouble);
      ("Cf", Object "Interpolate");
      ("r_init", Plain DTdouble);
      ("N_init", Plain DTdouble);
      ("rs", Plain DTdouble);
      ("Ns", Plain DTdouble)].

(** include/cp/generalizedhucocks.h:167 registered; include/cp/generalizedhucocks.h:82 type();
    src/cp/generalizedhucocks.cxx:116 initialize(); src/cp/generalizedhucocks.cxx:156
    parameters(), parameters added at lines 161,162,163,164,165; constructor
    src/cp/generalizedhucocks.cxx:104, reads at
    src/cp/generalizedhucocks.cxx:107,108,109,110,111 *)
Definition t_GeneralizedHuCocksPrecipitationModel : cls := mkCls "GeneralizedHuCocksPrecipitationModel" "GeneralizedHuCocksPrecipitationModel" "GeneralizedHuCocksPrecipitationModel" "GeneralizedHuCocksPrecipitationModel"
     [mkDecl "species" DTvecobj None;
      mkDecl "precipitates" DTvecobj None;
      mkDecl "kboltz" DTdouble (Some (Ddouble 13806485 (-30)));
      mkDecl "Na" DTdouble (Some (Ddouble 602 21));
      mkDecl "R" DTdouble (Some (Ddouble 831462 (-5)))]
     [("species", Objects "GeneralizedHuCocksSpecies");
      ("precipitates", Objects "GeneralizedHuCocksPrecipitate");
      ("kboltz", Plain DTdouble);
      ("Na", Plain DTdouble);
      ("R", Plain DTdouble)].

(** include/cp/generalizedhucocks.h:245 registered; include/cp/generalizedhucocks.h:176
    type(); include/cp/generalizedhucocks.h:177 initialize();
    src/cp/generalizedhucocks.cxx:642 parameters(), parameters added at lines
    647,648,649,650,651,652; constructor src/cp/generalizedhucocks.cxx:630, reads at
    src/cp/generalizedhucocks.cxx:632,633,634,635,636,637 *)
Definition t_GeneralizedHuCocksHardening : cls := mkCls "GeneralizedHuCocksHardening" "GeneralizedHuCocksHardening" "GeneralizedHuCocksHardening" "GeneralizedHuCocksHardening"
     [mkDecl "dmodel" DTobj None;
      mkDecl "pmodel" DTobj None;
      mkDecl "ap" DTdouble None;
      mkDecl "ac" DTdouble None;
      mkDecl "b" DTdouble None;
      mkDecl "G" DTobj None]
     [("ap", Plain DTdouble);
      ("ac", Plain DTdouble);
      ("b", Plain DTdouble);
      ("G", Object "Interpolate");
      ("dmodel", Object "SlipHardening");
      ("pmodel", Object "GeneralizedHuCocksPrecipitationModel")].

(** include/cp/hucocks.h:188 registered; src/cp/hucocks.cxx:34 type(); src/cp/hucocks.cxx:41
    initialize(); src/cp/hucocks.cxx:46 parameters(), parameters added at lines
    51,52,53,54,55,56,57,58,59,60,62,63,64,65,66,67,68,69,70,71,72; constructor
    src/cp/hucocks.cxx:6, reads at
    src/cp/hucocks.cxx:8,9,10,11,12,13,14,15,16,17,18,19,20,21,22,23,24,25,26,27,28 *)
Definition t_HuCocksPrecipitationModel : cls := mkCls "HuCocksPrecipitationModel" "HuCocksPrecipitationModel" "HuCocksPrecipitationModel" "HuCocksPrecipitationModel"
     [mkDecl "c0" DTvecobj None;
      mkDecl "cp" DTvecobj None;
      mkDecl "ceq" DTvecobj None;
      mkDecl "am" DTdouble None;
      mkDecl "N0" DTdouble None;
      mkDecl "Vm" DTdouble None;
      mkDecl "chi" DTdouble None;
      mkDecl "D0" DTdouble None;
      mkDecl "Q0" DTdouble None;
      mkDecl "Cf" DTobj None;
      mkDecl "kboltz" DTdouble (Some (Ddouble 13806485 (-30)));
      mkDecl "R" DTdouble (Some (Ddouble 831462 (-5)));
      mkDecl "Na" DTdouble (Some (Ddouble 602 21));
      mkDecl "rate" DTsize (Some (Dsize 0));
      mkDecl "f_init" DTdouble (Some (Ddouble 418879 (-21)));
      mkDecl "r_init" DTdouble (Some (Ddouble 1 (-9)));
      mkDecl "N_init" DTdouble (Some (Ddouble 1 11));
      mkDecl "fs" DTdouble (Some (Ddouble 1 (-1)));
      mkDecl "rs" DTdouble (Some (Ddouble 1 (-9)));
      mkDecl "Ns" DTdouble (Some (Ddouble 1 12));
      mkDecl "w" DTdouble (Some (Ddouble 1 0))]
     [("c0", Objects "Interpolate");
      ("cp", Objects "Interpolate");
      ("ceq", Objects "Interpolate");
      ("am", Plain DTdouble);
      ("N0", Plain DTdouble);
      ("Vm", Plain DTdouble);
      ("chi", Plain DTdouble);
      ("D0", Plain DTdouble);
      ("Q0", Plain DTdouble);
      ("Cf", Object "Interpolate");
      ("kboltz", Plain DTdouble);
      ("R", Plain DTdouble);
      ("Na", Plain DTdouble);
      ("rate", Plain DTsize);
      ("f_init", Plain DTdouble);
      ("r_init", Plain DTdouble);
      ("N_init", Plain DTdouble);
      ("fs", Plain DTdouble);
      ("rs", Plain DTdouble);
      ("Ns", Plain DTdouble);
      ("w", Plain DTdouble)].

(** include/cp/hucocks.h:264 registered; src/cp/hucocks.cxx:558 type(); src/cp/hucocks.cxx:565
    initialize(); src/cp/hucocks.cxx:570 parameters(), parameters added at lines
    575,576,577,578,579,580,581,582,584; constructor src/cp/hucocks.cxx:539, reads at
    src/cp/hucocks.cxx:541,542,543,544,545,546,547,548,549 *)
Definition t_DislocationSpacingHardening : cls := mkCls "DislocationSpacingHardening" "DislocationSpacingHardening" "DislocationSpacingHardening" "DislocationSpacingHardening"
     [mkDecl "J1" DTobj None;
      mkDecl "J2" DTobj None;
      mkDecl "K" DTobj None;
      mkDecl "L0" DTdouble None;
      mkDecl "a" DTdouble None;
      mkDecl "b" DTdouble None;
      mkDecl "G" DTobj None;
      mkDecl "L" DTobj None;
      mkDecl "varprefix" DTstring (Some (Dstring "spacing"))]
     [("J1", Object "Interpolate");
      ("J2", Object "Interpolate");
      ("K", Object "Interpolate");
      ("L0", Plain DTdouble);
      ("a", Plain DTdouble);
      ("b", Plain DTdouble);
      ("G", Object "Interpolate");
      ("L", Object "Lattice");
      ("varprefix", Plain DTstring)].

(** include/cp/hucocks.h:340 registered; src/cp/hucocks.cxx:832 type(); src/cp/hucocks.cxx:839
    initialize(); src/cp/hucocks.cxx:844 parameters(), parameters added at lines
    849,850,851,852,853,854; constructor src/cp/hucocks.cxx:807, reads at
    src/cp/hucocks.cxx:809,810,811,812,813,814 *)
Definition t_HuCocksHardening : cls := mkCls "HuCocksHardening" "HuCocksHardening" "HuCocksHardening" "HuCocksHardening"
     [mkDecl "dmodel" DTobj None;
      mkDecl "pmodels" DTvecobj None;
      mkDecl "ap" DTdouble None;
      mkDecl "ac" DTdouble None;
      mkDecl "b" DTdouble None;
      mkDecl "G" DTobj None]
     [("dmodel", Object "SlipHardening");
      ("pmodels", Objects "HuCocksPrecipitationModel");
      ("ap", Plain DTdouble);
      ("ac", Plain DTdouble);
      ("b", Plain DTdouble);
      ("G", Object "Interpolate")].

(** include/cp/hucocks.h:371 registered; src/cp/hucocks.cxx:1117 type();
    src/cp/hucocks.cxx:1124 initialize(); src/cp/hucocks.cxx:1129 parameters(), parameters
    added at lines 1134,1135,1136,1137,1138,1139,1140,1141; constructor
    src/cp/hucocks.cxx:1105, reads at src/cp/sliprules.cxx:352;
    src/cp/hucocks.cxx:1107,1108,1109,1110,1111,1112,1113 *)
Definition t_ArrheniusSlipRule : cls := mkCls "ArrheniusSlipRule" "ArrheniusSlipRule" "ArrheniusSlipRule" "ArrheniusSlipRule"
     [mkDecl "resistance" DTobj None;
      mkDecl "g0" DTdouble None;
      mkDecl "A" DTdouble None;
      mkDecl "B" DTdouble None;
      mkDecl "b" DTdouble None;
      mkDecl "a0" DTdouble None;
      mkDecl "G0" DTdouble None;
      mkDecl "k" DTdouble (Some (Ddouble 13806485 (-30)))]
     [("resistance", Object "SlipHardening");
      ("g0", Plain DTdouble);
      ("A", Plain DTdouble);
      ("B", Plain DTdouble);
      ("b", Plain DTdouble);
      ("a0", Plain DTdouble);
      ("G0", Plain DTdouble);
      ("k", Plain DTdouble)].

(** include/cp/inelasticity.h:166 registered; src/cp/inelasticity.cxx:29 type();
    src/cp/inelasticity.cxx:41 initialize(); src/cp/inelasticity.cxx:34 parameters();
    constructor src/cp/inelasticity.cxx:18 *)
Definition t_NoInelasticity : cls := mkCls "NoInelasticity" "NoInelasticity" "NoInelasticity" "NoInelasticity" [] [].

(** include/cp/inelasticity.h:260 registered; src/cp/inelasticity.cxx:153 type();
    src/cp/inelasticity.cxx:167 initialize(); src/cp/inelasticity.cxx:158 parameters(),
    parameters added at lines 162; constructor src/cp/inelasticity.cxx:141, reads at
    src/cp/inelasticity.cxx:143 *)
Definition t_AsaroInelasticity : cls := mkCls "AsaroInelasticity" "AsaroInelasticity" "AsaroInelasticity" "AsaroInelasticity"
     [mkDecl "rule" DTobj None]
     [("rule", Object "SlipRule")].

(** include/cp/inelasticity.h:354 registered; src/cp/inelasticity.cxx:343 type();
    src/cp/inelasticity.cxx:357 initialize(); src/cp/inelasticity.cxx:348 parameters(),
    parameters added at lines 351,352; constructor src/cp/inelasticity.cxx:335, reads at
    src/cp/inelasticity.cxx:337,338 *)
Definition t_PowerLawInelasticity : cls := mkCls "PowerLawInelasticity" "PowerLawInelasticity" "PowerLawInelasticity" "PowerLawInelasticity"
     [mkDecl "A" DTobj None;
      mkDecl "n" DTobj None]
     [("A", Object "Interpolate");
      ("n", Object "Interpolate")].

(** include/cp/inelasticity.h:445 registered; src/cp/inelasticity.cxx:492 type();
    src/cp/inelasticity.cxx:506 initialize(); src/cp/inelasticity.cxx:497 parameters(),
    parameters added at lines 501; constructor src/cp/inelasticity.cxx:485, reads at
    src/cp/inelasticity.cxx:487 *)
Definition t_CombinedInelasticity : cls := mkCls "CombinedInelasticity" "CombinedInelasticity" "CombinedInelasticity" "CombinedInelasticity"
     [mkDecl "models" DTvecobj None]
     [("models", Objects "InelasticModel")].

(** include/cp/kinematics.h:288 registered; src/cp/kinematics.cxx:59 type();
    src/cp/kinematics.cxx:64 initialize(); src/cp/kinematics.cxx:69 parameters(), parameters
    added at lines 73,74; constructor src/cp/kinematics.cxx:51, reads at
    src/cp/kinematics.cxx:53,54 *)
Definition t_StandardKinematicModel : cls := mkCls "StandardKinematicModel" "StandardKinematicModel" "StandardKinematicModel" "StandardKinematicModel"
     [mkDecl "emodel" DTobj None;
      mkDecl "imodel" DTobj None]
     [("emodel", Object "LinearElasticModel");
      ("imodel", Object "InelasticModel")].

(** include/cp/kinematics.h:405 registered; src/cp/kinematics.cxx:293 type();
    src/cp/kinematics.cxx:298 initialize(); src/cp/kinematics.cxx:303 parameters(), parameters
    added at lines 307,308,309; constructor src/cp/kinematics.cxx:285, reads at
    src/cp/kinematics.cxx:53,54,288,289 *)
Definition t_DamagedStandardKinematicModel : cls := mkCls "DamagedStandardKinematicModel" "DamagedStandardKinematicModel" "DamagedStandardKinematicModel" "DamagedStandardKinematicModel"
     [mkDecl "emodel" DTobj None;
      mkDecl "imodel" DTobj None;
      mkDecl "dmodel" DTobj None]
     [("emodel", Object "LinearElasticModel");
      ("imodel", Object "InelasticModel");
      ("dmodel", Object "CrystalDamageModel");
      ("imodel", Object "AsaroInelasticity")].

(** include/cp/polycrystal.h:75 registered; src/cp/polycrystal.cxx:129 type();
    src/cp/polycrystal.cxx:147 initialize(); src/cp/polycrystal.cxx:134 parameters(),
    parameters added at lines 138,139,140,141; constructor src/cp/polycrystal.cxx:123, reads
    at src/cp/polycrystal.cxx:11,12,13,14 *)
Definition t_TaylorModel : cls := mkCls "TaylorModel" "TaylorModel" "TaylorModel" "TaylorModel"
     [mkDecl "model" DTobj None;
      mkDecl "qs" DTvecobj None;
      mkDecl "nthreads" DTint (Some (Dint 1));
      mkDecl "weights" DTvecdouble (Some (Dbrace))]
     [("model", Object "SingleCrystalModel");
      ("qs", Objects "Orientation");
      ("nthreads", Plain DTint);
      ("weights", Plain DTvecdouble)].

(** include/cp/postprocessors.h:53 registered; src/cp/postprocessors.cxx:19 type();
    src/cp/postprocessors.cxx:34 initialize(); src/cp/postprocessors.cxx:24 parameters(),
    parameters added at lines 28,29; constructor src/cp/postprocessors.cxx:11, reads at
    src/cp/postprocessors.cxx:13,14 *)
Definition t_PTRTwinReorientation : cls := mkCls "PTRTwinReorientation" "PTRTwinReorientation" "PTRTwinReorientation" "PTRTwinReorientation"
     [mkDecl "threshold" DTobj None;
      mkDecl "prefix" DTstring (Some (Dstring "slip"))]
     [("threshold", Object "Interpolate");
      ("prefix", Plain DTstring)].

(** include/cp/singlecrystal.h:172 registered; src/cp/singlecrystal.cxx:28 type();
    src/cp/singlecrystal.cxx:59 initialize(); src/cp/singlecrystal.cxx:33 parameters(),
    parameters added at lines 37,38,39,41,43,44,45,46,47,48,49,50,51,52,53,54; constructor
    src/cp/singlecrystal.cxx:5, reads at
    src/cp/singlecrystal.cxx:7,8,9,10,11,12,13,14,15,16,17,18,19,20,21,22 *)
Definition t_SingleCrystalModel : cls := mkCls "SingleCrystalModel" "SingleCrystalModel" "SingleCrystalModel" "SingleCrystalModel"
     [mkDecl "kinematics" DTobj None;
      mkDecl "lattice" DTobj None;
      mkDecl "initial_rotation" DTobj (Some (Dmake "CrystalOrientation" "zero_orientation()"));
      mkDecl "alpha" DTobj (Some (Dmake "ConstantInterpolate" "make_constant(0.0)"));
      mkDecl "update_rotation" DTbool (Some (Dbool true));
      mkDecl "rtol" DTdouble (Some (Ddouble 1 (-8)));
      mkDecl "atol" DTdouble (Some (Ddouble 1 (-6)));
      mkDecl "miter" DTint (Some (Dint 30));
      mkDecl "verbose" DTbool (Some (Dbool false));
      mkDecl "linesearch" DTbool (Some (Dbool false));
      mkDecl "max_divide" DTint (Some (Dint 6));
      mkDecl "postprocessors" DTvecobj (Some (Dbrace));
      mkDecl "elastic_predictor" DTbool (Some (Dbool false));
      mkDecl "fallback_elastic_predictor" DTbool (Some (Dbool true));
      mkDecl "force_divide" DTint (Some (Dint 0));
      mkDecl "elastic_predictor_first_step" DTbool (Some (Dbool false))]
     [("kinematics", Object "KinematicModel");
      ("lattice", Object "Lattice");
      ("initial_rotation", Object "Orientation");
      ("alpha", Object "Interpolate");
      ("update_rotation", Plain DTbool);
      ("rtol", Plain DTdouble);
      ("atol", Plain DTdouble);
      ("miter", Plain DTint);
      ("verbose", Plain DTbool);
      ("linesearch", Plain DTbool);
      ("max_divide", Plain DTint);
      ("postprocessors", Objects "CrystalPostprocessor");
      ("elastic_predictor", Plain DTbool);
      ("fallback_elastic_predictor", Plain DTbool);
      ("force_divide", Plain DTint);
      ("elastic_predictor_first_step", Plain DTbool)].

(** include/cp/slipharden.h:151 registered; src/cp/slipharden.cxx:65 type();
    src/cp/slipharden.cxx:70 initialize(); src/cp/slipharden.cxx:75 parameters(), parameters
    added at lines 79; constructor src/cp/slipharden.cxx:58, reads at src/cp/slipharden.cxx:60 *)
Definition t_FixedStrengthHardening : cls := mkCls "FixedStrengthHardening" "FixedStrengthHardening" "FixedStrengthHardening" "FixedStrengthHardening"
     [mkDecl "strengths" DTvecobj None]
     [("strengths", Objects "Interpolate")].

(** include/cp/slipharden.h:216 registered; src/cp/slipharden.cxx:164 type();
    src/cp/slipharden.cxx:169 initialize(); src/cp/slipharden.cxx:174 parameters(), parameters
    added at lines 178,179,180,181,183; constructor src/cp/slipharden.cxx:148, reads at
    src/cp/slipharden.cxx:150,151,152,153,154 *)
Definition t_VocePerSystemHardening : cls := mkCls "VocePerSystemHardening" "VocePerSystemHardening" "VocePerSystemHardening" "VocePerSystemHardening"
     [mkDecl "initial" DTvecdouble None;
      mkDecl "k" DTvecobj None;
      mkDecl "saturation" DTvecobj None;
      mkDecl "m" DTvecobj None;
      mkDecl "varprefix" DTstring (Some (Dstring "strength"))]
     [("initial", Plain DTvecdouble);
      ("k", Objects "Interpolate");
      ("saturation", Objects "Interpolate");
      ("m", Objects "Interpolate");
      ("varprefix", Plain DTstring)].

(** include/cp/slipharden.h:280 registered; src/cp/slipharden.cxx:350 type();
    src/cp/slipharden.cxx:355 initialize(); src/cp/slipharden.cxx:360 parameters(), parameters
    added at lines 364,365,367; constructor src/cp/slipharden.cxx:336, reads at
    src/cp/slipharden.cxx:338,339,340 *)
Definition t_FASlipHardening : cls := mkCls "FASlipHardening" "FASlipHardening" "FASlipHardening" "FASlipHardening"
     [mkDecl "k" DTvecobj None;
      mkDecl "saturation" DTvecobj None;
      mkDecl "varprefix" DTstring (Some (Dstring "strength"))]
     [("k", Objects "Interpolate");
      ("saturation", Objects "Interpolate");
      ("varprefix", Plain DTstring)].

(** include/cp/slipharden.h:355 registered; src/cp/slipharden.cxx:529 type();
    src/cp/slipharden.cxx:534 initialize(); src/cp/slipharden.cxx:539 parameters(), parameters
    added at lines 543,544,546,547; constructor src/cp/slipharden.cxx:511, reads at
    src/cp/slipharden.cxx:513,514,515,516 *)
Definition t_GeneralLinearHardening : cls := mkCls "GeneralLinearHardening" "GeneralLinearHardening" "GeneralLinearHardening" "GeneralLinearHardening"
     [mkDecl "M" DTobj None;
      mkDecl "tau_0" DTvecdouble None;
      mkDecl "absval" DTbool (Some (Dbool true));
      mkDecl "varprefix" DTstring (Some (Dstring "strength"))]
     [("M", Object "SquareMatrix");
      ("tau_0", Plain DTvecdouble);
      ("absval", Plain DTbool);
      ("varprefix", Plain DTstring)].

(** include/cp/slipharden.h:431 registered; src/cp/slipharden.cxx:757 type();
    src/cp/slipharden.cxx:762 initialize(); src/cp/slipharden.cxx:767 parameters(), parameters
    added at lines 771,772,774; constructor src/cp/slipharden.cxx:740, reads at
    src/cp/slipharden.cxx:742,743,744 *)
Definition t_SimpleLinearHardening : cls := mkCls "SimpleLinearHardening" "SimpleLinearHardening" "SimpleLinearHardening" "SimpleLinearHardening"
     [mkDecl "G" DTobj None;
      mkDecl "tau_0" DTvecdouble None;
      mkDecl "varprefix" DTstring (Some (Dstring "slip"))]
     [("G", Object "SquareMatrix");
      ("tau_0", Plain DTvecdouble);
      ("varprefix", Plain DTstring)].

(** include/cp/slipharden.h:510 registered; src/cp/slipharden.cxx:965 type();
    src/cp/slipharden.cxx:970 initialize(); src/cp/slipharden.cxx:975 parameters(), parameters
    added at lines 979,980,981,982,983,984,985,986,988; constructor src/cp/slipharden.cxx:936,
    reads at src/cp/slipharden.cxx:938,939,940,941,942,943,944,945,946 *)
Definition t_LANLTiModel : cls := mkCls "LANLTiModel" "LANLTiModel" "LANLTiModel" "LANLTiModel"
     [mkDecl "tau_0" DTvecobj None;
      mkDecl "C_st" DTobj None;
      mkDecl "mu" DTvecobj None;
      mkDecl "k1" DTvecobj None;
      mkDecl "k2" DTvecobj None;
      mkDecl "X_s" DTdouble (Some (Ddouble 9 (-1)));
      mkDecl "inivalue" DTdouble (Some (Ddouble 0 0));
      mkDecl "varprefix" DTstring (Some (Dstring "rho"));
      mkDecl "twinprefix" DTstring (Some (Dstring "slip"))]
     [("tau_0", Objects "Interpolate");
      ("C_st", Object "SquareMatrix");
      ("mu", Objects "Interpolate");
      ("k1", Objects "Interpolate");
      ("k2", Objects "Interpolate");
      ("X_s", Plain DTdouble);
      ("inivalue", Plain DTdouble);
      ("varprefix", Plain DTstring);
      ("twinprefix", Plain DTstring)].

(** include/cp/slipharden.h:703 registered; src/cp/slipharden.cxx:1408 type();
    src/cp/slipharden.cxx:1413 initialize(); src/cp/slipharden.cxx:1419 parameters(),
    parameters added at lines 1423; constructor src/cp/slipharden.cxx:1378, reads at
    src/cp/slipharden.cxx:1381 *)
Definition t_SumSlipSingleStrengthHardening : cls := mkCls "SumSlipSingleStrengthHardening" "SumSlipSingleStrengthHardening" "SumSlipSingleStrengthHardening" "SumSlipSingleStrengthHardening"
     [mkDecl "models" DTvecobj None]
     [("models", Objects "SlipSingleStrengthHardening")].

(** include/cp/slipharden.h:785 registered; src/cp/slipharden.cxx:1633 type();
    src/cp/slipharden.cxx:1638 initialize(); src/cp/slipharden.cxx:1644 parameters(),
    parameters added at lines 1648,1649,1650,1652,1653; constructor
    src/cp/slipharden.cxx:1623, reads at src/cp/slipharden.cxx:1254,1625,1626,1627,1628 *)
Definition t_VoceSlipHardening : cls := mkCls "VoceSlipHardening" "VoceSlipHardening" "VoceSlipHardening" "VoceSlipHardening"
     [mkDecl "tau_sat" DTobj None;
      mkDecl "b" DTobj None;
      mkDecl "tau_0" DTobj None;
      mkDecl "k" DTobj (Some (Dmake "ConstantInterpolate" "make_constant(0)"));
      mkDecl "var_name" DTstring (Some (Dstring "strength"))]
     [("var_name", Plain DTstring);
      ("tau_sat", Object "Interpolate");
      ("b", Object "Interpolate");
      ("tau_0", Object "Interpolate");
      ("k", Object "Interpolate")].

(** include/cp/slipharden.h:827 registered; src/cp/slipharden.cxx:1715 type();
    src/cp/slipharden.cxx:1720 initialize(); src/cp/slipharden.cxx:1726 parameters(),
    parameters added at lines 1730,1731,1732,1734; constructor src/cp/slipharden.cxx:1706,
    reads at src/cp/slipharden.cxx:1254,1708,1709,1710 *)
Definition t_LinearSlipHardening : cls := mkCls "LinearSlipHardening" "LinearSlipHardening" "LinearSlipHardening" "LinearSlipHardening"
     [mkDecl "tau0" DTobj None;
      mkDecl "k1" DTobj None;
      mkDecl "k2" DTobj None;
      mkDecl "var_name" DTstring (Some (Dstring "strength"))]
     [("var_name", Plain DTstring);
      ("tau0", Object "Interpolate");
      ("k1", Object "Interpolate");
      ("k2", Object "Interpolate")].

(** include/cp/sliprules.h:183 registered; src/cp/sliprules.cxx:266 type();
    src/cp/sliprules.cxx:271 initialize(); src/cp/sliprules.cxx:277 parameters(), parameters
    added at lines 281,282,283,284,285; constructor src/cp/sliprules.cxx:255, reads at
    src/cp/sliprules.cxx:257,258,259,260,261 *)
Definition t_KinematicPowerLawSlipRule : cls := mkCls "KinematicPowerLawSlipRule" "KinematicPowerLawSlipRule" "KinematicPowerLawSlipRule" "KinematicPowerLawSlipRule"
     [mkDecl "backstrength" DTobj None;
      mkDecl "isostrength" DTobj None;
      mkDecl "flowresistance" DTobj None;
      mkDecl "gamma0" DTobj None;
      mkDecl "n" DTobj None]
     [("backstrength", Object "SlipHardening");
      ("isostrength", Object "SlipHardening");
      ("flowresistance", Object "SlipHardening");
      ("gamma0", Object "Interpolate");
      ("n", Object "Interpolate")].

(** include/cp/sliprules.h:247 registered; src/cp/sliprules.cxx:387 type();
    src/cp/sliprules.cxx:392 initialize(); src/cp/sliprules.cxx:398 parameters(), parameters
    added at lines 402,403,404; constructor src/cp/sliprules.cxx:379, reads at
    src/cp/sliprules.cxx:352,381,382 *)
Definition t_PowerLawSlipRule : cls := mkCls "PowerLawSlipRule" "PowerLawSlipRule" "PowerLawSlipRule" "PowerLawSlipRule"
     [mkDecl "resistance" DTobj None;
      mkDecl "gamma0" DTobj None;
      mkDecl "n" DTobj None]
     [("resistance", Object "SlipHardening");
      ("gamma0", Object "Interpolate");
      ("n", Object "Interpolate")].

(** include/creep.h:127 registered; src/creep.cxx:42 type(); src/creep.cxx:57 initialize();
    src/creep.cxx:47 parameters(), parameters added at lines 51,52; constructor
    src/creep.cxx:34, reads at src/creep.cxx:36,37 *)
Definition t_PowerLawCreep : cls := mkCls "PowerLawCreep" "PowerLawCreep" "PowerLawCreep" "PowerLawCreep"
     [mkDecl "A" DTobj None;
      mkDecl "n" DTobj None]
     [("A", Object "Interpolate");
      ("n", Object "Interpolate")].

(** include/creep.h:155 registered; src/creep.cxx:99 type(); src/creep.cxx:114 initialize();
    src/creep.cxx:104 parameters(), parameters added at lines 108,109; constructor
    src/creep.cxx:91, reads at src/creep.cxx:93,94 *)
Definition t_NormalizedPowerLawCreep : cls := mkCls "NormalizedPowerLawCreep" "NormalizedPowerLawCreep" "NormalizedPowerLawCreep" "NormalizedPowerLawCreep"
     [mkDecl "s0" DTobj None;
      mkDecl "n" DTobj None]
     [("s0", Object "Interpolate");
      ("n", Object "Interpolate")].

(** include/creep.h:64 registered; src/creep.cxx:150 type(); src/creep.cxx:168 initialize();
    src/creep.cxx:155 parameters(), parameters added at lines 159,160,161,162,163; constructor
    src/creep.cxx:139, reads at src/creep.cxx:141,142,143,144,145 *)
Definition t_BlackburnMinimumCreep : cls := mkCls "BlackburnMinimumCreep" "BlackburnMinimumCreep" "BlackburnMinimumCreep" "BlackburnMinimumCreep"
     [mkDecl "A" DTobj None;
      mkDecl "n" DTobj None;
      mkDecl "beta" DTobj None;
      mkDecl "R" DTdouble None;
      mkDecl "Q" DTdouble None]
     [("A", Object "Interpolate");
      ("n", Object "Interpolate");
      ("beta", Object "Interpolate");
      ("R", Plain DTdouble);
      ("Q", Plain DTdouble)].

(** include/creep.h:94 registered; src/creep.cxx:221 type(); src/creep.cxx:240 initialize();
    src/creep.cxx:226 parameters(), parameters added at lines 230,231,232,233,235; constructor
    src/creep.cxx:210, reads at src/creep.cxx:212,213,214,215,216 *)
Definition t_SwindemanMinimumCreep : cls := mkCls "SwindemanMinimumCreep" "SwindemanMinimumCreep" "SwindemanMinimumCreep" "SwindemanMinimumCreep"
     [mkDecl "C" DTdouble None;
      mkDecl "n" DTdouble None;
      mkDecl "V" DTdouble None;
      mkDecl "Q" DTdouble None;
      mkDecl "celsius" DTbool (Some (Dbool false))]
     [("C", Plain DTdouble);
      ("n", Plain DTdouble);
      ("V", Plain DTdouble);
      ("Q", Plain DTdouble);
      ("celsius", Plain DTbool)].

(** include/creep.h:191 registered; src/creep.cxx:286 type(); src/creep.cxx:308 initialize();
    src/creep.cxx:291 parameters(), parameters added at lines 295,296,297,298,299,300,301,303;
    constructor src/creep.cxx:271, reads at src/creep.cxx:273,274,275,276,277,278,280,281 *)
Definition t_RegionKMCreep : cls := mkCls "RegionKMCreep" "RegionKMCreep" "RegionKMCreep" "RegionKMCreep"
     [mkDecl "cuts" DTvecdouble None;
      mkDecl "A" DTvecobj None;
      mkDecl "B" DTvecobj None;
      mkDecl "kboltz" DTdouble None;
      mkDecl "b" DTdouble None;
      mkDecl "eps0" DTdouble None;
      mkDecl "emodel" DTobj None;
      mkDecl "celsius" DTbool (Some (Dbool false))]
     [("cuts", Plain DTvecdouble);
      ("A", Objects "Interpolate");
      ("B", Objects "Interpolate");
      ("kboltz", Plain DTdouble);
      ("b", Plain DTdouble);
      ("eps0", Plain DTdouble);
      ("emodel", Object "LinearElasticModel");
      ("celsius", Plain DTbool)].

(** include/creep.h:224 registered; src/creep.cxx:380 type(); src/creep.cxx:396 initialize();
    src/creep.cxx:385 parameters(), parameters added at lines 389,390,391; constructor
    src/creep.cxx:371, reads at src/creep.cxx:373,374,375 *)
Definition t_NortonBaileyCreep : cls := mkCls "NortonBaileyCreep" "NortonBaileyCreep" "NortonBaileyCreep" "NortonBaileyCreep"
     [mkDecl "A" DTobj None;
      mkDecl "m" DTobj None;
      mkDecl "n" DTobj None]
     [("A", Object "Interpolate");
      ("m", Object "Interpolate");
      ("n", Object "Interpolate")].

(** include/creep.h:269 registered; src/creep.cxx:485 type(); src/creep.cxx:506 initialize();
    src/creep.cxx:490 parameters(), parameters added at lines 494,495,496,497,498,499,500,501;
    constructor src/creep.cxx:471, reads at src/creep.cxx:473,474,475,476,477,478,479,480 *)
Definition t_MukherjeeCreep : cls := mkCls "MukherjeeCreep" "MukherjeeCreep" "MukherjeeCreep" "MukherjeeCreep"
     [mkDecl "emodel" DTobj None;
      mkDecl "A" DTdouble None;
      mkDecl "n" DTdouble None;
      mkDecl "D0" DTdouble None;
      mkDecl "Q" DTdouble None;
      mkDecl "b" DTdouble None;
      mkDecl "k" DTdouble None;
      mkDecl "R" DTdouble None]
     [("emodel", Object "LinearElasticModel");
      ("A", Plain DTdouble);
      ("n", Plain DTdouble);
      ("D0", Plain DTdouble);
      ("Q", Plain DTdouble);
      ("b", Plain DTdouble);
      ("k", Plain DTdouble);
      ("R", Plain DTdouble)].

(** include/creep.h:295 registered; src/creep.cxx:575 type(); src/creep.cxx:580 initialize();
    src/creep.cxx:585 parameters(), parameters added at lines 589; constructor
    src/creep.cxx:568, reads at src/creep.cxx:570 *)
Definition t_GenericCreep : cls := mkCls "GenericCreep" "GenericCreep" "GenericCreep" "GenericCreep"
     [mkDecl "cfn" DTobj None]
     [("cfn", Object "Interpolate")].

(** include/creep.h:331 registered; src/creep.cxx:734 type(); src/creep.cxx:746 initialize();
    src/creep.cxx:739 parameters(); constructor src/creep.cxx:728 *)
Definition t_MinCreep225Cr1MoCreep : cls := mkCls "MinCreep225Cr1MoCreep" "MinCreep225Cr1MoCreep" "MinCreep225Cr1MoCreep" "MinCreep225Cr1MoCreep" [] [].

(** include/creep.h:439 registered; src/creep.cxx:826 type(); src/creep.cxx:846 initialize();
    src/creep.cxx:831 parameters(), parameters added at lines 835,837,838,839,840,841;
    constructor src/creep.cxx:820, reads at src/creep.cxx:620,621,622,623,624,821 *)
Definition t_J2CreepModel : cls := mkCls "J2CreepModel" "J2CreepModel" "J2CreepModel" "J2CreepModel"
     [mkDecl "rule" DTobj None;
      mkDecl "rtol" DTdouble (Some (Ddouble 1 (-8)));
      mkDecl "atol" DTdouble (Some (Ddouble 1 (-10)));
      mkDecl "miter" DTint (Some (Dint 25));
      mkDecl "verbose" DTbool (Some (Dbool false));
      mkDecl "linesearch" DTbool (Some (Dbool false))]
     [("rtol", Plain DTdouble);
      ("atol", Plain DTdouble);
      ("miter", Plain DTint);
      ("verbose", Plain DTbool);
      ("linesearch", Plain DTbool);
      ("rule", Object "ScalarCreepRule")].

(** include/damage.h:143 registered; src/damage.cxx:52 type(); src/damage.cxx:81 initialize();
    src/damage.cxx:57 parameters(), parameters added at lines
    61,62,63,65,67,68,69,70,71,72,74,75,76; constructor src/damage.cxx:37, reads at
    src/models.cxx:99,100,101; src/damage.cxx:12,39,40,41,42,43,44,45,46,47 *)
Definition t_NEMLScalarDamagedModel_sd : cls := mkCls "NEMLScalarDamagedModel_sd" "NEMLScalarDamagedModel_sd" "NEMLScalarDamagedModel_sd" "NEMLScalarDamagedModel_sd"
     [mkDecl "elastic" DTobj None;
      mkDecl "base" DTobj None;
      mkDecl "damage" DTobj None;
      mkDecl "alpha" DTobj (Some (Dmake "ConstantInterpolate" "make_constant(0.0)"));
      mkDecl "rtol" DTdouble (Some (Ddouble 1 (-6)));
      mkDecl "atol" DTdouble (Some (Ddouble 1 (-8)));
      mkDecl "miter" DTint (Some (Dint 50));
      mkDecl "verbose" DTbool (Some (Dbool false));
      mkDecl "linesearch" DTbool (Some (Dbool false));
      mkDecl "truesdell" DTbool (Some (Dbool true));
      mkDecl "ekill" DTbool (Some (Dbool false));
      mkDecl "dkill" DTdouble (Some (Ddouble 5 (-1)));
      mkDecl "sfact" DTdouble (Some (Ddouble 1 5))]
     [("elastic", Object "LinearElasticModel");
      ("alpha", Object "Interpolate");
      ("truesdell", Plain DTbool);
      ("base", Object "NEMLModel_sd");
      ("damage", Object "ScalarDamage");
      ("rtol", Plain DTdouble);
      ("atol", Plain DTdouble);
      ("miter", Plain DTint);
      ("verbose", Plain DTbool);
      ("linesearch", Plain DTbool);
      ("ekill", Plain DTbool);
      ("dkill", Plain DTdouble);
      ("sfact", Plain DTdouble)].

(** include/damage.h:287 registered; src/damage.cxx:402 type(); src/damage.cxx:417
    initialize(); src/damage.cxx:407 parameters(), parameters added at lines 411,412;
    constructor src/damage.cxx:396, reads at src/damage.cxx:329,398 *)
Definition t_CombinedDamage : cls := mkCls "CombinedDamage" "CombinedDamage" "CombinedDamage" "CombinedDamage"
     [mkDecl "elastic" DTobj None;
      mkDecl "models" DTvecobj None]
     [("elastic", Object "LinearElasticModel");
      ("models", Objects "ScalarDamage")].

(** include/damage.h:333 registered; src/damage.cxx:500 type(); src/damage.cxx:517
    initialize(); src/damage.cxx:505 parameters(), parameters added at lines 509,510,511,512;
    constructor src/damage.cxx:490, reads at src/damage.cxx:329,492,493,494 *)
Definition t_ClassicalCreepDamage : cls := mkCls "ClassicalCreepDamage" "ClassicalCreepDamage" "ClassicalCreepDamage" "ClassicalCreepDamage"
     [mkDecl "elastic" DTobj None;
      mkDecl "A" DTobj None;
      mkDecl "xi" DTobj None;
      mkDecl "phi" DTobj None]
     [("elastic", Object "LinearElasticModel");
      ("A", Object "Interpolate");
      ("xi", Object "Interpolate");
      ("phi", Object "Interpolate")].

(** include/damage.h:360 registered; src/damage.cxx:602 type(); src/damage.cxx:614
    initialize(); src/damage.cxx:607 parameters(); constructor src/damage.cxx:596 *)
Definition t_VonMisesEffectiveStress : cls := mkCls "VonMisesEffectiveStress" "VonMisesEffectiveStress" "VonMisesEffectiveStress" "VonMisesEffectiveStress" [] [].

(** include/damage.h:379 registered; src/damage.cxx:644 type(); src/damage.cxx:653
    initialize(); src/damage.cxx:646 parameters(); constructor src/damage.cxx:639 *)
Definition t_MeanEffectiveStress : cls := mkCls "MeanEffectiveStress" "MeanEffectiveStress" "MeanEffectiveStress" "MeanEffectiveStress" [] [].

(** include/damage.h:401 registered; src/damage.cxx:680 type(); src/damage.cxx:694
    initialize(); src/damage.cxx:685 parameters(), parameters added at lines 689; constructor
    src/damage.cxx:673, reads at src/damage.cxx:675 *)
Definition t_HuddlestonEffectiveStress : cls := mkCls "HuddlestonEffectiveStress" "HuddlestonEffectiveStress" "HuddlestonEffectiveStress" "HuddlestonEffectiveStress"
     [mkDecl "b" DTdouble None]
     [("b", Plain DTdouble)].

(** include/damage.h:420 registered; src/damage.cxx:771 type(); src/damage.cxx:783
    initialize(); src/damage.cxx:776 parameters(); constructor src/damage.cxx:764 *)
Definition t_MaxPrincipalEffectiveStress : cls := mkCls "MaxPrincipalEffectiveStress" "MaxPrincipalEffectiveStress" "MaxPrincipalEffectiveStress" "MaxPrincipalEffectiveStress" [] [].

(** include/damage.h:445 registered; src/damage.cxx:838 type(); src/damage.cxx:852
    initialize(); src/damage.cxx:843 parameters(), parameters added at lines 847; constructor
    src/damage.cxx:831, reads at src/damage.cxx:833 *)
Definition t_MaxSeveralEffectiveStress : cls := mkCls "MaxSeveralEffectiveStress" "MaxSeveralEffectiveStress" "MaxSeveralEffectiveStress" "MaxSeveralEffectiveStress"
     [mkDecl "measures" DTvecobj None]
     [("measures", Objects "EffectiveStress")].

(** include/damage.h:468 registered; src/damage.cxx:898 type(); src/damage.cxx:913
    initialize(); src/damage.cxx:903 parameters(), parameters added at lines 907,908;
    constructor src/damage.cxx:888, reads at src/damage.cxx:890,891 *)
Definition t_SumSeveralEffectiveStress : cls := mkCls "SumSeveralEffectiveStress" "SumSeveralEffectiveStress" "SumSeveralEffectiveStress" "SumSeveralEffectiveStress"
     [mkDecl "measures" DTvecobj None;
      mkDecl "weights" DTvecdouble None]
     [("measures", Objects "EffectiveStress");
      ("weights", Plain DTvecdouble)].

(** include/damage.h:513 registered; src/damage.cxx:950 type(); src/damage.cxx:968
    initialize(); src/damage.cxx:955 parameters(), parameters added at lines
    959,960,961,962,963; constructor src/damage.cxx:940, reads at
    src/damage.cxx:329,942,943,944,945 *)
Definition t_ModularCreepDamage : cls := mkCls "ModularCreepDamage" "ModularCreepDamage" "ModularCreepDamage" "ModularCreepDamage"
     [mkDecl "elastic" DTobj None;
      mkDecl "A" DTobj None;
      mkDecl "xi" DTobj None;
      mkDecl "phi" DTobj None;
      mkDecl "estress" DTobj None]
     [("elastic", Object "LinearElasticModel");
      ("A", Object "Interpolate");
      ("xi", Object "Interpolate");
      ("phi", Object "Interpolate");
      ("estress", Object "EffectiveStress")].

(** include/damage.h:552 registered; src/damage.cxx:1045 type(); src/damage.cxx:1061
    initialize(); src/damage.cxx:1050 parameters(), parameters added at lines 1054,1055,1056;
    constructor src/damage.cxx:1038, reads at src/damage.cxx:329,1040,1041 *)
Definition t_LarsonMillerCreepDamage : cls := mkCls "LarsonMillerCreepDamage" "LarsonMillerCreepDamage" "LarsonMillerCreepDamage" "LarsonMillerCreepDamage"
     [mkDecl "elastic" DTobj None;
      mkDecl "lmr" DTobj None;
      mkDecl "estress" DTobj None]
     [("elastic", Object "LinearElasticModel");
      ("lmr", Object "LarsonMillerRelation");
      ("estress", Object "EffectiveStress")].

(** include/damage.h:677 registered; src/damage.cxx:1301 type(); src/damage.cxx:1320
    initialize(); src/damage.cxx:1306 parameters(), parameters added at lines
    1310,1311,1312,1313,1314,1315; constructor src/damage.cxx:1291, reads at
    src/damage.cxx:329,1293,1294,1295,1296,1297 *)
Definition t_WorkDamage : cls := mkCls "WorkDamage" "WorkDamage" "WorkDamage" "WorkDamage"
     [mkDecl "elastic" DTobj None;
      mkDecl "Wcrit" DTobj None;
      mkDecl "n" DTdouble None;
      mkDecl "eps" DTdouble (Some (Ddouble 1 (-30)));
      mkDecl "work_scale" DTdouble (Some (Ddouble 1 0));
      mkDecl "log" DTbool (Some (Dbool false))]
     [("elastic", Object "LinearElasticModel");
      ("Wcrit", Object "Interpolate");
      ("n", Plain DTdouble);
      ("eps", Plain DTdouble);
      ("work_scale", Plain DTdouble);
      ("log", Plain DTbool)].

(** include/damage.h:712 registered; src/damage.cxx:1516 type(); src/damage.cxx:1532
    initialize(); src/damage.cxx:1521 parameters(), parameters added at lines 1525,1526,1527;
    constructor src/damage.cxx:1508, reads at src/damage.cxx:329,1510,1511 *)
Definition t_PowerLawDamage : cls := mkCls "PowerLawDamage" "PowerLawDamage" "PowerLawDamage" "PowerLawDamage"
     [mkDecl "elastic" DTobj None;
      mkDecl "A" DTobj None;
      mkDecl "a" DTobj None]
     [("elastic", Object "LinearElasticModel");
      ("A", Object "Interpolate");
      ("a", Object "Interpolate")].

(** include/damage.h:748 registered; src/damage.cxx:1588 type(); src/damage.cxx:1605
    initialize(); src/damage.cxx:1593 parameters(), parameters added at lines
    1597,1598,1599,1600; constructor src/damage.cxx:1578, reads at
    src/damage.cxx:329,1581,1582,1583 *)
Definition t_ExponentialWorkDamage : cls := mkCls "ExponentialWorkDamage" "ExponentialWorkDamage" "ExponentialWorkDamage" "ExponentialWorkDamage"
     [mkDecl "elastic" DTobj None;
      mkDecl "W0" DTobj None;
      mkDecl "k0" DTobj None;
      mkDecl "af" DTobj None]
     [("elastic", Object "LinearElasticModel");
      ("W0", Object "Interpolate");
      ("k0", Object "Interpolate");
      ("af", Object "Interpolate")].

(** include/elasticity.h:84 registered; src/elasticity.cxx:73 type(); src/elasticity.cxx:90
    initialize(); src/elasticity.cxx:78 parameters(), parameters added at lines 82,83,84,85;
    constructor src/elasticity.cxx:54, reads at src/elasticity.cxx:57,58,59,60 *)
Definition t_IsotropicLinearElasticModel : cls := mkCls "IsotropicLinearElasticModel" "IsotropicLinearElasticModel" "IsotropicLinearElasticModel" "IsotropicLinearElasticModel"
     [mkDecl "m1" DTobj None;
      mkDecl "m1_type" DTstring None;
      mkDecl "m2" DTobj None;
      mkDecl "m2_type" DTstring None]
     [("m1", Object "Interpolate");
      ("m2", Object "Interpolate");
      ("m1_type", Plain DTstring);
      ("m2_type", Plain DTstring)].

(** include/elasticity.h:111 registered; src/elasticity.cxx:255 type(); src/elasticity.cxx:272
    initialize(); src/elasticity.cxx:260 parameters(), parameters added at lines
    264,265,266,267; constructor src/elasticity.cxx:243, reads at
    src/elasticity.cxx:245,246,247,248 *)
Definition t_CubicLinearElasticModel : cls := mkCls "CubicLinearElasticModel" "CubicLinearElasticModel" "CubicLinearElasticModel" "CubicLinearElasticModel"
     [mkDecl "m1" DTobj None;
      mkDecl "m2" DTobj None;
      mkDecl "m3" DTobj None;
      mkDecl "method" DTstring None]
     [("m1", Object "Interpolate");
      ("m2", Object "Interpolate");
      ("m3", Object "Interpolate");
      ("method", Plain DTstring)].

(** include/elasticity.h:139 registered; src/elasticity.cxx:345 type(); src/elasticity.cxx:364
    initialize(); src/elasticity.cxx:350 parameters(), parameters added at lines
    354,355,356,357,358,359; constructor src/elasticity.cxx:330, reads at
    src/elasticity.cxx:333,334,335,336,337,338 *)
Definition t_TransverseIsotropicLinearElasticModel : cls := mkCls "TransverseIsotropicLinearElasticModel" "TransverseIsotropicLinearElasticModel" "TransverseIsotropicLinearElasticModel" "TransverseIsotropicLinearElasticModel"
     [mkDecl "m1" DTobj None;
      mkDecl "m2" DTobj None;
      mkDecl "m3" DTobj None;
      mkDecl "m4" DTobj None;
      mkDecl "m5" DTobj None;
      mkDecl "method" DTstring None]
     [("m1", Object "Interpolate");
      ("m2", Object "Interpolate");
      ("m3", Object "Interpolate");
      ("m4", Object "Interpolate");
      ("m5", Object "Interpolate");
      ("method", Plain DTstring)].

(** include/general_flow.h:160 registered; src/general_flow.cxx:44 type();
    src/general_flow.cxx:59 initialize(); src/general_flow.cxx:49 parameters(), parameters
    added at lines 53,54; constructor src/general_flow.cxx:36, reads at
    src/general_flow.cxx:38,39 *)
Definition t_TVPFlowRule : cls := mkCls "TVPFlowRule" "TVPFlowRule" "TVPFlowRule" "TVPFlowRule"
     [mkDecl "elastic" DTobj None;
      mkDecl "flow" DTobj None]
     [("elastic", Object "LinearElasticModel");
      ("flow", Object "ViscoPlasticFlowRule")].

(** include/hardening.h:71 registered; src/hardening.cxx:43 type(); src/hardening.cxx:58
    initialize(); src/hardening.cxx:48 parameters(), parameters added at lines 52,53;
    constructor src/hardening.cxx:35, reads at src/hardening.cxx:37,38 *)
Definition t_LinearIsotropicHardeningRule : cls := mkCls "LinearIsotropicHardeningRule" "LinearIsotropicHardeningRule" "LinearIsotropicHardeningRule" "LinearIsotropicHardeningRule"
     [mkDecl "s0" DTobj None;
      mkDecl "K" DTobj None]
     [("s0", Object "Interpolate");
      ("K", Object "Interpolate")].

(** include/hardening.h:98 registered; src/hardening.cxx:95 type(); src/hardening.cxx:109
    initialize(); src/hardening.cxx:100 parameters(), parameters added at lines 104;
    constructor src/hardening.cxx:88, reads at src/hardening.cxx:90 *)
Definition t_InterpolatedIsotropicHardeningRule : cls := mkCls "InterpolatedIsotropicHardeningRule" "InterpolatedIsotropicHardeningRule" "InterpolatedIsotropicHardeningRule" "InterpolatedIsotropicHardeningRule"
     [mkDecl "flow" DTobj None]
     [("flow", Object "Interpolate")].

(** include/hardening.h:131 registered; src/hardening.cxx:140 type(); src/hardening.cxx:156
    initialize(); src/hardening.cxx:145 parameters(), parameters added at lines 149,150,151;
    constructor src/hardening.cxx:130, reads at src/hardening.cxx:133,134,135 *)
Definition t_VoceIsotropicHardeningRule : cls := mkCls "VoceIsotropicHardeningRule" "VoceIsotropicHardeningRule" "VoceIsotropicHardeningRule" "VoceIsotropicHardeningRule"
     [mkDecl "s0" DTobj None;
      mkDecl "R" DTobj None;
      mkDecl "d" DTobj None]
     [("s0", Object "Interpolate");
      ("R", Object "Interpolate");
      ("d", Object "Interpolate")].

(** include/hardening.h:155 registered; src/hardening.cxx:201 type(); src/hardening.cxx:217
    initialize(); src/hardening.cxx:206 parameters(), parameters added at lines 210,211,212;
    constructor src/hardening.cxx:191, reads at src/hardening.cxx:194,195,196 *)
Definition t_PowerLawIsotropicHardeningRule : cls := mkCls "PowerLawIsotropicHardeningRule" "PowerLawIsotropicHardeningRule" "PowerLawIsotropicHardeningRule" "PowerLawIsotropicHardeningRule"
     [mkDecl "s0" DTobj None;
      mkDecl "A" DTobj None;
      mkDecl "n" DTobj None]
     [("s0", Object "Interpolate");
      ("A", Object "Interpolate");
      ("n", Object "Interpolate")].

(** include/hardening.h:183 registered; src/hardening.cxx:250 type(); src/hardening.cxx:264
    initialize(); src/hardening.cxx:255 parameters(), parameters added at lines 259;
    constructor src/hardening.cxx:242, reads at src/hardening.cxx:245 *)
Definition t_CombinedIsotropicHardeningRule : cls := mkCls "CombinedIsotropicHardeningRule" "CombinedIsotropicHardeningRule" "CombinedIsotropicHardeningRule" "CombinedIsotropicHardeningRule"
     [mkDecl "rules" DTvecobj None]
     [("rules", Objects "IsotropicHardeningRule")].

(** include/hardening.h:225 registered; src/hardening.cxx:323 type(); src/hardening.cxx:337
    initialize(); src/hardening.cxx:328 parameters(), parameters added at lines 332;
    constructor src/hardening.cxx:316, reads at src/hardening.cxx:318 *)
Definition t_LinearKinematicHardeningRule : cls := mkCls "LinearKinematicHardeningRule" "LinearKinematicHardeningRule" "LinearKinematicHardeningRule" "LinearKinematicHardeningRule"
     [mkDecl "H" DTobj None]
     [("H", Object "Interpolate")].

(** include/hardening.h:254 registered; src/hardening.cxx:374 type(); src/hardening.cxx:389
    initialize(); src/hardening.cxx:379 parameters(), parameters added at lines 383,384;
    constructor src/hardening.cxx:366, reads at src/hardening.cxx:368,369 *)
Definition t_CombinedHardeningRule : cls := mkCls "CombinedHardeningRule" "CombinedHardeningRule" "CombinedHardeningRule" "CombinedHardeningRule"
     [mkDecl "iso" DTobj None;
      mkDecl "kin" DTobj None]
     [("iso", Object "IsotropicHardeningRule");
      ("kin", Object "KinematicHardeningRule")].

(** include/hardening.h:335 registered; src/hardening.cxx:510 type(); src/hardening.cxx:524
    initialize(); src/hardening.cxx:515 parameters(), parameters added at lines 519;
    constructor src/hardening.cxx:503, reads at src/hardening.cxx:505 *)
Definition t_ConstantGamma : cls := mkCls "ConstantGamma" "ConstantGamma" "ConstantGamma" "ConstantGamma"
     [mkDecl "g" DTobj None]
     [("g", Object "Interpolate")].

(** include/hardening.h:367 registered; src/hardening.cxx:555 type(); src/hardening.cxx:571
    initialize(); src/hardening.cxx:560 parameters(), parameters added at lines 564,565,566;
    constructor src/hardening.cxx:546, reads at src/hardening.cxx:548,549,550 *)
Definition t_SatGamma : cls := mkCls "SatGamma" "SatGamma" "SatGamma" "SatGamma"
     [mkDecl "gs" DTobj None;
      mkDecl "g0" DTobj None;
      mkDecl "beta" DTobj None]
     [("gs", Object "Interpolate");
      ("g0", Object "Interpolate");
      ("beta", Object "Interpolate")].

(** include/hardening.h:458 registered; src/hardening.cxx:613 type(); src/hardening.cxx:633
    initialize(); src/hardening.cxx:618 parameters(), parameters added at lines
    622,623,624,625,626,628; constructor src/hardening.cxx:599, reads at
    src/hardening.cxx:601,602,604,605,606,608 *)
Definition t_Chaboche : cls := mkCls "Chaboche" "Chaboche" "Chaboche" "Chaboche"
     [mkDecl "iso" DTobj None;
      mkDecl "C" DTvecobj None;
      mkDecl "gmodels" DTvecobj None;
      mkDecl "A" DTvecobj None;
      mkDecl "a" DTvecobj None;
      mkDecl "noniso" DTbool (Some (Dbool true))]
     [("iso", Object "IsotropicHardeningRule");
      ("C", Objects "Interpolate");
      ("gmodels", Objects "GammaModel");
      ("A", Objects "Interpolate");
      ("a", Objects "Interpolate");
      ("noniso", Plain DTbool)].

(** include/hardening.h:544 registered; src/hardening.cxx:979 type(); src/hardening.cxx:1005
    initialize(); src/hardening.cxx:984 parameters(), parameters added at lines
    988,989,990,991,992,993,995,996,997,998,1000; constructor src/hardening.cxx:961, reads at
    src/hardening.cxx:963,964,965,966,967,968,969,971,972,973,974 *)
Definition t_ChabocheVoceRecovery : cls := mkCls "ChabocheVoceRecovery" "ChabocheVoceRecovery" "ChabocheVoceRecovery" "ChabocheVoceRecovery"
     [mkDecl "s0" DTobj None;
      mkDecl "theta0" DTobj None;
      mkDecl "Rmax" DTobj None;
      mkDecl "Rmin" DTobj None;
      mkDecl "r1" DTobj None;
      mkDecl "r2" DTobj None;
      mkDecl "C" DTvecobj None;
      mkDecl "gmodels" DTvecobj None;
      mkDecl "A" DTvecobj None;
      mkDecl "a" DTvecobj None;
      mkDecl "noniso" DTbool (Some (Dbool true))]
     [("s0", Object "Interpolate");
      ("theta0", Object "Interpolate");
      ("Rmax", Object "Interpolate");
      ("Rmin", Object "Interpolate");
      ("r1", Object "Interpolate");
      ("r2", Object "Interpolate");
      ("C", Objects "Interpolate");
      ("gmodels", Objects "GammaModel");
      ("A", Objects "Interpolate");
      ("a", Objects "Interpolate");
      ("noniso", Plain DTbool)].

(** include/interpolate.h:55 registered; src/interpolate.cxx:35 type(); src/interpolate.cxx:49
    initialize(); src/interpolate.cxx:40 parameters(), parameters added at lines 44;
    constructor src/interpolate.cxx:28, reads at src/interpolate.cxx:30 *)
Definition t_PolynomialInterpolate : cls := mkCls "PolynomialInterpolate" "PolynomialInterpolate" "PolynomialInterpolate" "PolynomialInterpolate"
     [mkDecl "coefs" DTvecdouble None]
     [("coefs", Plain DTvecdouble)].

(** include/interpolate.h:100 registered; src/interpolate.cxx:80 type();
    src/interpolate.cxx:95 initialize(); src/interpolate.cxx:85 parameters(), parameters added
    at lines 89,90; constructor src/interpolate.cxx:65, reads at src/interpolate.cxx:67,68 *)
Definition t_PiecewiseLinearInterpolate : cls := mkCls "PiecewiseLinearInterpolate" "PiecewiseLinearInterpolate" "PiecewiseLinearInterpolate" "PiecewiseLinearInterpolate"
     [mkDecl "points" DTvecdouble None;
      mkDecl "values" DTvecdouble None]
     [("points", Plain DTvecdouble);
      ("values", Plain DTvecdouble)].

(** include/interpolate.h:77 registered; src/interpolate.cxx:161 type();
    src/interpolate.cxx:176 initialize(); src/interpolate.cxx:166 parameters(), parameters
    added at lines 170,171; constructor src/interpolate.cxx:146, reads at
    src/interpolate.cxx:148,149 *)
Definition t_GenericPiecewiseInterpolate : cls := mkCls "GenericPiecewiseInterpolate" "GenericPiecewiseInterpolate" "GenericPiecewiseInterpolate" "GenericPiecewiseInterpolate"
     [mkDecl "points" DTvecdouble None;
      mkDecl "functions" DTvecobj None]
     [("points", Plain DTvecdouble);
      ("functions", Objects "Interpolate")].

(** include/interpolate.h:124 registered; src/interpolate.cxx:240 type();
    src/interpolate.cxx:255 initialize(); src/interpolate.cxx:245 parameters(), parameters
    added at lines 249,250; constructor src/interpolate.cxx:219, reads at
    src/interpolate.cxx:222,223 *)
Definition t_PiecewiseLogLinearInterpolate : cls := mkCls "PiecewiseLogLinearInterpolate" "PiecewiseLogLinearInterpolate" "PiecewiseLogLinearInterpolate" "PiecewiseLogLinearInterpolate"
     [mkDecl "points" DTvecdouble None;
      mkDecl "values" DTvecdouble None]
     [("points", Plain DTvecdouble);
      ("values", Plain DTvecdouble)].

(** include/interpolate.h:148 registered; src/interpolate.cxx:328 type();
    src/interpolate.cxx:343 initialize(); src/interpolate.cxx:333 parameters(), parameters
    added at lines 337,338; constructor src/interpolate.cxx:306, reads at
    src/interpolate.cxx:309,310 *)
Definition t_PiecewiseSemiLogXLinearInterpolate : cls := mkCls "PiecewiseSemiLogXLinearInterpolate" "PiecewiseSemiLogXLinearInterpolate" "PiecewiseSemiLogXLinearInterpolate" "PiecewiseSemiLogXLinearInterpolate"
     [mkDecl "points" DTvecdouble None;
      mkDecl "values" DTvecdouble None]
     [("points", Plain DTvecdouble);
      ("values", Plain DTvecdouble)].

(** include/interpolate.h:170 registered; src/interpolate.cxx:401 type();
    src/interpolate.cxx:415 initialize(); src/interpolate.cxx:406 parameters(), parameters
    added at lines 410; constructor src/interpolate.cxx:394, reads at src/interpolate.cxx:396 *)
Definition t_ConstantInterpolate : cls := mkCls "ConstantInterpolate" "ConstantInterpolate" "ConstantInterpolate" "ConstantInterpolate"
     [mkDecl "v" DTdouble None]
     [("v", Plain DTdouble)].

(** include/interpolate.h:192 registered; src/interpolate.cxx:438 type();
    src/interpolate.cxx:453 initialize(); src/interpolate.cxx:443 parameters(), parameters
    added at lines 447,448; constructor src/interpolate.cxx:430, reads at
    src/interpolate.cxx:432,433 *)
Definition t_ExpInterpolate : cls := mkCls "ExpInterpolate" "ExpInterpolate" "ExpInterpolate" "ExpInterpolate"
     [mkDecl "A" DTdouble None;
      mkDecl "B" DTdouble None]
     [("A", Plain DTdouble);
      ("B", Plain DTdouble)].

(** include/interpolate.h:214 registered; src/interpolate.cxx:476 type();
    src/interpolate.cxx:491 initialize(); src/interpolate.cxx:481 parameters(), parameters
    added at lines 485,486; constructor src/interpolate.cxx:468, reads at
    src/interpolate.cxx:470,471 *)
Definition t_PowerLawInterpolate : cls := mkCls "PowerLawInterpolate" "PowerLawInterpolate" "PowerLawInterpolate" "PowerLawInterpolate"
     [mkDecl "A" DTdouble None;
      mkDecl "B" DTdouble None]
     [("A", Plain DTdouble);
      ("B", Plain DTdouble)].

(** include/interpolate.h:236 registered; src/interpolate.cxx:515 type();
    src/interpolate.cxx:531 initialize(); src/interpolate.cxx:520 parameters(), parameters
    added at lines 524,525,526; constructor src/interpolate.cxx:506, reads at
    src/interpolate.cxx:508,509,510 *)
Definition t_MTSShearInterpolate : cls := mkCls "MTSShearInterpolate" "MTSShearInterpolate" "MTSShearInterpolate" "MTSShearInterpolate"
     [mkDecl "V0" DTdouble None;
      mkDecl "D" DTdouble None;
      mkDecl "T0" DTdouble None]
     [("V0", Plain DTdouble);
      ("D", Plain DTdouble);
      ("T0", Plain DTdouble)].

(** include/interpolate.h:260 registered; src/interpolate.cxx:560 type();
    src/interpolate.cxx:580 initialize(); src/interpolate.cxx:565 parameters(), parameters
    added at lines 569,570,571,572,573,574,575; constructor src/interpolate.cxx:547, reads at
    src/interpolate.cxx:549,550,551,552,553,554,555 *)
Definition t_MTSInterpolate : cls := mkCls "MTSInterpolate" "MTSInterpolate" "MTSInterpolate" "MTSInterpolate"
     [mkDecl "tau0" DTdouble None;
      mkDecl "g0" DTdouble None;
      mkDecl "q" DTdouble None;
      mkDecl "p" DTdouble None;
      mkDecl "k" DTdouble None;
      mkDecl "b" DTdouble None;
      mkDecl "mu" DTobj None]
     [("tau0", Plain DTdouble);
      ("g0", Plain DTdouble);
      ("q", Plain DTdouble);
      ("p", Plain DTdouble);
      ("k", Plain DTdouble);
      ("b", Plain DTdouble);
      ("mu", Object "Interpolate")].

(** include/larsonmiller.h:55 registered; src/larsonmiller.cxx:20 type();
    src/larsonmiller.cxx:40 initialize(); src/larsonmiller.cxx:25 parameters(), parameters
    added at lines 29,30,31,32,33,34,35; constructor src/larsonmiller.cxx:7, reads at
    src/larsonmiller.cxx:9,10,11,12,13,14,15 *)
Definition t_LarsonMillerRelation : cls := mkCls "LarsonMillerRelation" "LarsonMillerRelation" "LarsonMillerRelation" "LarsonMillerRelation"
     [mkDecl "function" DTobj None;
      mkDecl "C" DTdouble None;
      mkDecl "rtol" DTdouble (Some (Ddouble 1 (-6)));
      mkDecl "atol" DTdouble (Some (Ddouble 1 (-6)));
      mkDecl "miter" DTint (Some (Dint 20));
      mkDecl "verbose" DTbool (Some (Dbool false));
      mkDecl "linesearch" DTbool (Some (Dbool false))]
     [("function", Object "Interpolate");
      ("C", Plain DTdouble);
      ("rtol", Plain DTdouble);
      ("atol", Plain DTdouble);
      ("miter", Plain DTint);
      ("verbose", Plain DTbool);
      ("linesearch", Plain DTbool)].

(** include/math/matrix.h:96 registered; src/math/matrix.cxx:121 type();
    src/math/matrix.cxx:139 initialize(); src/math/matrix.cxx:126 parameters(), parameters
    added at lines 130,132,133,134; constructor src/math/matrix.cxx:85, reads at
    src/math/matrix.cxx:87,89,90,92 *)
Definition t_SquareMatrix : cls := mkCls "SquareMatrix" "SquareMatrix" "SquareMatrix" "SquareMatrix"
     [mkDecl "m" DTsize None;
      mkDecl "type" DTstring (Some (Dstring "zero"));
      mkDecl "data" DTvecdouble (Some (Dvecdouble));
      mkDecl "blocks" DTvecsize (Some (Dvecsize))]
     [("m", Plain DTsize);
      ("m", Plain DTsize);
      ("type", Plain DTstring);
      ("data", Plain DTvecdouble);
      ("blocks", Plain DTvecsize)].

(** include/math/rotations.h:258 registered; src/math/rotations.cxx:1090 type();
    src/math/rotations.cxx:1107 initialize(); src/math/rotations.cxx:1095 parameters(),
    parameters added at lines 1099,1100,1101; constructor src/math/rotations.cxx:1081, reads
    at src/math/rotations.cxx:1084,1086,1087 *)
Definition t_CrystalOrientation : cls := mkCls "CrystalOrientation" "CrystalOrientation" "CrystalOrientation" "CrystalOrientation"
     [mkDecl "angles" DTvecdouble None;
      mkDecl "angle_type" DTstring (Some (Dstring "radians"));
      mkDecl "angle_convention" DTstring (Some (Dstring "kocks"))]
     [("angles", Plain DTvecdouble);
      ("angle_type", Plain DTstring);
      ("angle_convention", Plain DTstring)].

(** include/models.h:319 registered; src/models.cxx:463 type(); src/models.cxx:481
    initialize(); src/models.cxx:468 parameters(), parameters added at lines 472,474,476;
    constructor src/models.cxx:457, reads at src/models.cxx:99,100,101 *)
Definition t_SmallStrainElasticity : cls := mkCls "SmallStrainElasticity" "SmallStrainElasticity" "SmallStrainElasticity" "SmallStrainElasticity"
     [mkDecl "elastic" DTobj None;
      mkDecl "alpha" DTobj (Some (Dmake "ConstantInterpolate" "make_constant(0.0)"));
      mkDecl "truesdell" DTbool (Some (Dbool true))]
     [("elastic", Object "LinearElasticModel");
      ("alpha", Object "Interpolate");
      ("truesdell", Plain DTbool)].

(** include/models.h:461 registered; src/models.cxx:527 type(); src/models.cxx:555
    initialize(); src/models.cxx:532 parameters(), parameters added at lines
    536,537,538,540,542,543,544,545,546,547,548,550; constructor src/models.cxx:519, reads at
    src/models.cxx:99,100,101,258,259,260,261,262,263,264,521,522 *)
Definition t_SmallStrainPerfectPlasticity : cls := mkCls "SmallStrainPerfectPlasticity" "SmallStrainPerfectPlasticity" "SmallStrainPerfectPlasticity" "SmallStrainPerfectPlasticity"
     [mkDecl "elastic" DTobj None;
      mkDecl "surface" DTobj None;
      mkDecl "ys" DTobj None;
      mkDecl "alpha" DTobj (Some (Dmake "ConstantInterpolate" "make_constant(0.0)"));
      mkDecl "atol" DTdouble (Some (Ddouble 1 (-8)));
      mkDecl "rtol" DTdouble (Some (Ddouble 1 (-8)));
      mkDecl "miter" DTint (Some (Dint 50));
      mkDecl "verbose" DTbool (Some (Dbool false));
      mkDecl "linesearch" DTbool (Some (Dbool false));
      mkDecl "max_divide" DTint (Some (Dint 4));
      mkDecl "force_divide" DTbool (Some (Dbool false));
      mkDecl "truesdell" DTbool (Some (Dbool true))]
     [("elastic", Object "LinearElasticModel");
      ("alpha", Object "Interpolate");
      ("truesdell", Plain DTbool);
      ("rtol", Plain DTdouble);
      ("atol", Plain DTdouble);
      ("miter", Plain DTint);
      ("verbose", Plain DTbool);
      ("linesearch", Plain DTbool);
      ("max_divide", Plain DTint);
      ("force_divide", Plain DTbool);
      ("surface", Object "YieldSurface");
      ("ys", Object "Interpolate")].

(** include/models.h:556 registered; src/models.cxx:763 type(); src/models.cxx:792
    initialize(); src/models.cxx:768 parameters(), parameters added at lines
    772,773,775,777,779,780,781,782,783,785,786; constructor src/models.cxx:755, reads at
    src/models.cxx:99,100,101,258,259,260,261,262,263,264,758 *)
Definition t_SmallStrainRateIndependentPlasticity : cls := mkCls "SmallStrainRateIndependentPlasticity" "SmallStrainRateIndependentPlasticity" "SmallStrainRateIndependentPlasticity" "SmallStrainRateIndependentPlasticity"
     [mkDecl "elastic" DTobj None;
      mkDecl "flow" DTobj None;
      mkDecl "alpha" DTobj (Some (Dmake "ConstantInterpolate" "make_constant(0.0)"));
      mkDecl "truesdell" DTbool (Some (Dbool true));
      mkDecl "rtol" DTdouble (Some (Ddouble 1 (-8)));
      mkDecl "atol" DTdouble (Some (Ddouble 1 (-8)));
      mkDecl "miter" DTint (Some (Dint 50));
      mkDecl "verbose" DTbool (Some (Dbool false));
      mkDecl "linesearch" DTbool (Some (Dbool false));
      mkDecl "max_divide" DTint (Some (Dint 4));
      mkDecl "force_divide" DTbool (Some (Dbool false))]
     [("elastic", Object "LinearElasticModel");
      ("alpha", Object "Interpolate");
      ("truesdell", Plain DTbool);
      ("rtol", Plain DTdouble);
      ("atol", Plain DTdouble);
      ("miter", Plain DTint);
      ("verbose", Plain DTbool);
      ("linesearch", Plain DTbool);
      ("max_divide", Plain DTint);
      ("force_divide", Plain DTbool);
      ("flow", Object "RateIndependentFlowRule")].

(** include/models.h:622 registered; src/models.cxx:1088 type(); src/models.cxx:1115
    initialize(); src/models.cxx:1093 parameters(), parameters added at lines
    1097,1098,1099,1101,1103,1104,1105,1106,1107,1108,1110; constructor src/models.cxx:1073,
    reads at src/models.cxx:99,100,101,1076,1077,1078,1079,1080,1081,1082,1083 *)
Definition t_SmallStrainCreepPlasticity : cls := mkCls "SmallStrainCreepPlasticity" "SmallStrainCreepPlasticity" "SmallStrainCreepPlasticity" "SmallStrainCreepPlasticity"
     [mkDecl "elastic" DTobj None;
      mkDecl "plastic" DTobj None;
      mkDecl "creep" DTobj None;
      mkDecl "alpha" DTobj (Some (Dmake "ConstantInterpolate" "make_constant(0.0)"));
      mkDecl "atol" DTdouble (Some (Ddouble 1 (-10)));
      mkDecl "miter" DTint (Some (Dint 50));
      mkDecl "verbose" DTbool (Some (Dbool false));
      mkDecl "sf" DTdouble (Some (Ddouble 1 6));
      mkDecl "rtol" DTdouble (Some (Ddouble 1 (-12)));
      mkDecl "linesearch" DTbool (Some (Dbool true));
      mkDecl "truesdell" DTbool (Some (Dbool true))]
     [("elastic", Object "LinearElasticModel");
      ("alpha", Object "Interpolate");
      ("truesdell", Plain DTbool);
      ("plastic", Object "NEMLModel_sd");
      ("creep", Object "CreepModel");
      ("rtol", Plain DTdouble);
      ("atol", Plain DTdouble);
      ("sf", Plain DTdouble);
      ("miter", Plain DTint);
      ("verbose", Plain DTbool);
      ("linesearch", Plain DTbool)].

(** include/models.h:716 registered; src/models.cxx:1319 type(); src/models.cxx:1347
    initialize(); src/models.cxx:1324 parameters(), parameters added at lines
    1328,1329,1331,1333,1335,1336,1337,1338,1339,1340,1341,1342; constructor
    src/models.cxx:1311, reads at
    src/models.cxx:99,100,101,258,259,260,261,262,263,264,1313,1314 *)
Definition t_GeneralIntegrator : cls := mkCls "GeneralIntegrator" "GeneralIntegrator" "GeneralIntegrator" "GeneralIntegrator"
     [mkDecl "elastic" DTobj None;
      mkDecl "rule" DTobj None;
      mkDecl "alpha" DTobj (Some (Dmake "ConstantInterpolate" "make_constant(0.0)"));
      mkDecl "truesdell" DTbool (Some (Dbool true));
      mkDecl "rtol" DTdouble (Some (Ddouble 1 (-8)));
      mkDecl "atol" DTdouble (Some (Ddouble 1 (-8)));
      mkDecl "miter" DTint (Some (Dint 50));
      mkDecl "verbose" DTbool (Some (Dbool false));
      mkDecl "linesearch" DTbool (Some (Dbool false));
      mkDecl "max_divide" DTint (Some (Dint 4));
      mkDecl "force_divide" DTbool (Some (Dbool false));
      mkDecl "skip_first_step" DTbool (Some (Dbool false))]
     [("elastic", Object "LinearElasticModel");
      ("alpha", Object "Interpolate");
      ("truesdell", Plain DTbool);
      ("rtol", Plain DTdouble);
      ("atol", Plain DTdouble);
      ("miter", Plain DTint);
      ("verbose", Plain DTbool);
      ("linesearch", Plain DTbool);
      ("max_divide", Plain DTint);
      ("force_divide", Plain DTbool);
      ("rule", Object "GeneralFlowRule");
      ("skip_first_step", Plain DTbool)].

(** include/models.h:779 registered; src/models.cxx:1621 type(); src/models.cxx:1645
    initialize(); src/models.cxx:1626 parameters(), parameters added at lines
    1630,1631,1632,1633,1634,1635,1637,1640; constructor src/models.cxx:1610, reads at
    src/models.cxx:99,100,101,1612,1613,1614,1615,1616 *)
Definition t_KMRegimeModel : cls := mkCls "KMRegimeModel" "KMRegimeModel" "KMRegimeModel" "KMRegimeModel"
     [mkDecl "elastic" DTobj None;
      mkDecl "models" DTvecobj None;
      mkDecl "gs" DTvecdouble None;
      mkDecl "kboltz" DTdouble None;
      mkDecl "b" DTdouble None;
      mkDecl "eps0" DTdouble None;
      mkDecl "alpha" DTobj (Some (Dmake "ConstantInterpolate" "make_constant(0.0)"));
      mkDecl "truesdell" DTbool (Some (Dbool true))]
     [("elastic", Object "LinearElasticModel");
      ("alpha", Object "Interpolate");
      ("truesdell", Plain DTbool);
      ("models", Objects "NEMLModel_sd");
      ("gs", Plain DTvecdouble);
      ("kboltz", Plain DTdouble);
      ("b", Plain DTdouble);
      ("eps0", Plain DTdouble)].

(** include/ri_flow.h:105 registered; src/ri_flow.cxx:22 type(); src/ri_flow.cxx:37
    initialize(); src/ri_flow.cxx:27 parameters(), parameters added at lines 31,32;
    constructor src/ri_flow.cxx:13, reads at src/ri_flow.cxx:16,17 *)
Definition t_RateIndependentAssociativeFlow : cls := mkCls "RateIndependentAssociativeFlow" "RateIndependentAssociativeFlow" "RateIndependentAssociativeFlow" "RateIndependentAssociativeFlow"
     [mkDecl "surface" DTobj None;
      mkDecl "hardening" DTobj None]
     [("surface", Object "YieldSurface");
      ("hardening", Object "HardeningRule")].

(** include/ri_flow.h:166 registered; src/ri_flow.cxx:192 type(); src/ri_flow.cxx:207
    initialize(); src/ri_flow.cxx:197 parameters(), parameters added at lines 201,202;
    constructor src/ri_flow.cxx:183, reads at src/ri_flow.cxx:186,187 *)
Definition t_RateIndependentNonAssociativeHardening : cls := mkCls "RateIndependentNonAssociativeHardening" "RateIndependentNonAssociativeHardening" "RateIndependentNonAssociativeHardening" "RateIndependentNonAssociativeHardening"
     [mkDecl "surface" DTobj None;
      mkDecl "hardening" DTobj None]
     [("surface", Object "YieldSurface");
      ("hardening", Object "NonAssociativeHardening")].

(** include/surfaces.h:241 registered; src/surfaces.cxx:19 type(); src/surfaces.cxx:24
    initialize(); src/surfaces.cxx:29 parameters(); constructor include/surfaces.h:228 *)
Definition t_IsoJ2 : cls := mkCls "IsoJ2" "IsoJ2" "IsoJ2" "IsoJ2" [] [].

(** include/surfaces.h:214 registered; src/surfaces.cxx:43 type(); src/surfaces.cxx:48
    initialize(); src/surfaces.cxx:53 parameters(); constructor src/surfaces.cxx:37 *)
Definition t_IsoKinJ2 : cls := mkCls "IsoKinJ2" "IsoKinJ2" "IsoKinJ2" "IsoKinJ2" [] [].

(** include/surfaces.h:295 registered; src/surfaces.cxx:224 type(); src/surfaces.cxx:229
    initialize(); src/surfaces.cxx:234 parameters(), parameters added at lines 238,239;
    constructor src/surfaces.cxx:216, reads at src/surfaces.cxx:218,219 *)
Definition t_IsoKinJ2I1 : cls := mkCls "IsoKinJ2I1" "IsoKinJ2I1" "IsoKinJ2I1" "IsoKinJ2I1"
     [mkDecl "h" DTobj None;
      mkDecl "l" DTobj None]
     [("h", Object "Interpolate");
      ("l", Object "Interpolate")].

(** include/surfaces.h:314 registered; src/surfaces.cxx:445 type(); src/surfaces.cxx:450
    initialize(); src/surfaces.cxx:455 parameters(), parameters added at lines 459,460;
    constructor include/surfaces.h:301, reads at src/surfaces.cxx:218,219 *)
Definition t_IsoJ2I1 : cls := mkCls "IsoJ2I1" "IsoJ2I1" "IsoJ2I1" "IsoJ2I1"
     [mkDecl "h" DTobj None;
      mkDecl "l" DTobj None]
     [("h", Object "Interpolate");
      ("l", Object "Interpolate")].

(** include/visco_flow.h:198 registered; src/visco_flow.cxx:125 type(); src/visco_flow.cxx:139
    initialize(); src/visco_flow.cxx:130 parameters(), parameters added at lines 134;
    constructor src/visco_flow.cxx:109, reads at src/visco_flow.cxx:111 *)
Definition t_SuperimposedViscoPlasticFlowRule : cls := mkCls "SuperimposedViscoPlasticFlowRule" "SuperimposedViscoPlasticFlowRule" "SuperimposedViscoPlasticFlowRule" "SuperimposedViscoPlasticFlowRule"
     [mkDecl "flow_rules" DTvecobj None]
     [("flow_rules", Objects "ViscoPlasticFlowRule")].

(** include/visco_flow.h:239 registered; src/visco_flow.cxx:637 type(); src/visco_flow.cxx:652
    initialize(); src/visco_flow.cxx:642 parameters(), parameters added at lines 646,647;
    constructor src/visco_flow.cxx:629, reads at src/visco_flow.cxx:631,632 *)
Definition t_GPowerLaw : cls := mkCls "GPowerLaw" "GPowerLaw" "GPowerLaw" "GPowerLaw"
     [mkDecl "n" DTobj None;
      mkDecl "eta" DTobj None]
     [("n", Object "Interpolate");
      ("eta", Object "Interpolate")].

(** include/visco_flow.h:296 registered; src/visco_flow.cxx:687 type(); src/visco_flow.cxx:703
    initialize(); src/visco_flow.cxx:692 parameters(), parameters added at lines 696,697,698;
    constructor src/visco_flow.cxx:678, reads at src/visco_flow.cxx:680,681,682 *)
Definition t_PerzynaFlowRule : cls := mkCls "PerzynaFlowRule" "PerzynaFlowRule" "PerzynaFlowRule" "PerzynaFlowRule"
     [mkDecl "surface" DTobj None;
      mkDecl "hardening" DTobj None;
      mkDecl "g" DTobj None]
     [("surface", Object "YieldSurface");
      ("hardening", Object "HardeningRule");
      ("g", Object "GFlow")].

(** include/visco_flow.h:354 registered; src/visco_flow.cxx:886 type(); src/visco_flow.cxx:901
    initialize(); src/visco_flow.cxx:891 parameters(), parameters added at lines 895,896;
    constructor src/visco_flow.cxx:878, reads at src/visco_flow.cxx:880,881 *)
Definition t_LinearViscousFlow : cls := mkCls "LinearViscousFlow" "LinearViscousFlow" "LinearViscousFlow" "LinearViscousFlow"
     [mkDecl "surface" DTobj None;
      mkDecl "eta" DTobj None]
     [("surface", Object "YieldSurface");
      ("eta", Object "Interpolate")].

(** include/visco_flow.h:391 registered; src/visco_flow.cxx:1006 type();
    src/visco_flow.cxx:1020 initialize(); src/visco_flow.cxx:1011 parameters(), parameters
    added at lines 1015; constructor src/visco_flow.cxx:999, reads at src/visco_flow.cxx:1001 *)
Definition t_ConstantFluidity : cls := mkCls "ConstantFluidity" "ConstantFluidity" "ConstantFluidity" "ConstantFluidity"
     [mkDecl "eta" DTobj None]
     [("eta", Object "Interpolate")].

(** include/visco_flow.h:416 registered; src/visco_flow.cxx:1045 type();
    src/visco_flow.cxx:1061 initialize(); src/visco_flow.cxx:1050 parameters(), parameters
    added at lines 1054,1055,1056; constructor src/visco_flow.cxx:1036, reads at
    src/visco_flow.cxx:1038,1039,1040 *)
Definition t_SaturatingFluidity : cls := mkCls "SaturatingFluidity" "SaturatingFluidity" "SaturatingFluidity" "SaturatingFluidity"
     [mkDecl "K0" DTobj None;
      mkDecl "A" DTobj None;
      mkDecl "b" DTobj None]
     [("K0", Object "Interpolate");
      ("A", Object "Interpolate");
      ("b", Object "Interpolate")].

(** include/visco_flow.h:501 registered; src/visco_flow.cxx:1096 type();
    src/visco_flow.cxx:1114 initialize(); src/visco_flow.cxx:1101 parameters(), parameters
    added at lines 1104,1105,1106,1107,1108; constructor src/visco_flow.cxx:1084, reads at
    src/visco_flow.cxx:1086,1087,1088,1089,1090 *)
Definition t_ChabocheFlowRule : cls := mkCls "ChabocheFlowRule" "ChabocheFlowRule" "ChabocheFlowRule" "ChabocheFlowRule"
     [mkDecl "surface" DTobj None;
      mkDecl "hardening" DTobj None;
      mkDecl "fluidity" DTobj None;
      mkDecl "n" DTobj None;
      mkDecl "prefactor" DTobj (Some (Dmake "ConstantInterpolate" "make_constant(1.0)"))]
     [("surface", Object "YieldSurface");
      ("hardening", Object "NonAssociativeHardening");
      ("fluidity", Object "FluidityModel");
      ("n", Object "Interpolate");
      ("prefactor", Object "Interpolate")].

(** include/visco_flow.h:609 registered; src/visco_flow.cxx:1319 type();
    src/visco_flow.cxx:1331 initialize(); src/visco_flow.cxx:1324 parameters(); constructor
    src/visco_flow.cxx:1313 *)
Definition t_YaguchiGr91FlowRule : cls := mkCls "YaguchiGr91FlowRule" "YaguchiGr91FlowRule" "YaguchiGr91FlowRule" "YaguchiGr91FlowRule" [] [].

(** include/walker.h:108 registered; src/walker.cxx:15 type(); src/walker.cxx:32 initialize();
    src/walker.cxx:20 parameters(), parameters added at lines 24,25,26,27; constructor
    src/walker.cxx:5, reads at src/walker.cxx:7,8,9,10 *)
Definition t_WalkerKremplSwitchRule : cls := mkCls "WalkerKremplSwitchRule" "WalkerKremplSwitchRule" "WalkerKremplSwitchRule" "WalkerKremplSwitchRule"
     [mkDecl "elastic" DTobj None;
      mkDecl "flow" DTobj None;
      mkDecl "lambda" DTobj None;
      mkDecl "eps_ref" DTdouble None]
     [("elastic", Object "LinearElasticModel");
      ("flow", Object "ViscoPlasticFlowRule");
      ("lambda", Object "Interpolate");
      ("eps_ref", Plain DTdouble)].

(** include/walker.h:128 registered; src/walker.cxx:374 type(); src/walker.cxx:379
    initialize(); src/walker.cxx:384 parameters(); constructor src/walker.cxx:368 *)
Definition t_SofteningModel : cls := mkCls "SofteningModel" "SofteningModel" "SofteningModel" "SofteningModel" [] [].

(** include/walker.h:153 registered; src/walker.cxx:409 type(); src/walker.cxx:414
    initialize(); src/walker.cxx:419 parameters(), parameters added at lines 423,424;
    constructor src/walker.cxx:401, reads at src/walker.cxx:403,404 *)
Definition t_WalkerSofteningModel : cls := mkCls "WalkerSofteningModel" "WalkerSofteningModel" "WalkerSofteningModel" "WalkerSofteningModel"
     [mkDecl "phi_0" DTobj None;
      mkDecl "phi_1" DTobj None]
     [("phi_0", Object "Interpolate");
      ("phi_1", Object "Interpolate")].

(** include/walker.h:171 registered; src/walker.cxx:457 type(); src/walker.cxx:462
    initialize(); src/walker.cxx:467 parameters(); constructor src/walker.cxx:451 *)
Definition t_ThermalScaling : cls := mkCls "ThermalScaling" "ThermalScaling" "ThermalScaling" "ThermalScaling" [] [].

(** include/walker.h:198 registered; src/walker.cxx:488 type(); src/walker.cxx:493
    initialize(); src/walker.cxx:499 parameters(), parameters added at lines 503,504,505;
    constructor src/walker.cxx:479, reads at src/walker.cxx:481,482,483 *)
Definition t_ArrheniusThermalScaling : cls := mkCls "ArrheniusThermalScaling" "ArrheniusThermalScaling" "ArrheniusThermalScaling" "ArrheniusThermalScaling"
     [mkDecl "Q" DTobj None;
      mkDecl "R" DTdouble None;
      mkDecl "T_ref" DTdouble None]
     [("Q", Object "Interpolate");
      ("R", Plain DTdouble);
      ("T_ref", Plain DTdouble)].

(** include/walker.h:248 registered; src/walker.cxx:618 type(); src/walker.cxx:634
    initialize(); src/walker.cxx:623 parameters(), parameters added at lines 627,628;
    constructor src/walker.cxx:612, reads at include/internalvariable.h:94; src/walker.cxx:522 *)
Definition t_ConstantIsotropicHardening : cls := mkCls "ConstantIsotropicHardening" "ConstantIsotropicHardening" "ConstantIsotropicHardening" "ConstantIsotropicHardening"
     [mkDecl "name" DTstring (Some (Dlit "R"));
      mkDecl "scaling" DTobj (Some (Dmake "ThermalScaling" "default_scaling()"))]
     [("name", Plain DTstring);
      ("scaling", Object "ThermalScaling")].

(** include/walker.h:288 registered; src/walker.cxx:692 type(); src/walker.cxx:713
    initialize(); src/walker.cxx:697 parameters(), parameters added at lines
    701,702,703,704,705,706,707; constructor src/walker.cxx:681, reads at
    include/internalvariable.h:94; src/walker.cxx:522,683,684,685,686,687 *)
Definition t_WalkerIsotropicHardening : cls := mkCls "WalkerIsotropicHardening" "WalkerIsotropicHardening" "WalkerIsotropicHardening" "WalkerIsotropicHardening"
     [mkDecl "r0" DTobj None;
      mkDecl "Rinf" DTobj None;
      mkDecl "R0" DTobj None;
      mkDecl "r1" DTobj None;
      mkDecl "r2" DTobj None;
      mkDecl "name" DTstring (Some (Dlit "R"));
      mkDecl "scaling" DTobj (Some (Dmake "ThermalScaling" "default_scaling()"))]
     [("name", Plain DTstring);
      ("scaling", Object "ThermalScaling");
      ("r0", Object "Interpolate");
      ("Rinf", Object "Interpolate");
      ("R0", Object "Interpolate");
      ("r1", Object "Interpolate");
      ("r2", Object "Interpolate")].

(** include/walker.h:353 registered; src/walker.cxx:899 type(); src/walker.cxx:916
    initialize(); src/walker.cxx:904 parameters(), parameters added at lines 908,909,910;
    constructor src/walker.cxx:892, reads at include/internalvariable.h:94;
    src/walker.cxx:797,894 *)
Definition t_ConstantDragStress : cls := mkCls "ConstantDragStress" "ConstantDragStress" "ConstantDragStress" "ConstantDragStress"
     [mkDecl "value" DTdouble None;
      mkDecl "name" DTstring (Some (Dlit "D"));
      mkDecl "scaling" DTobj (Some (Dmake "ThermalScaling" "default_scaling()"))]
     [("name", Plain DTstring);
      ("scaling", Object "ThermalScaling");
      ("value", Plain DTdouble)].

(** include/walker.h:394 registered; src/walker.cxx:979 type(); src/walker.cxx:1001
    initialize(); src/walker.cxx:984 parameters(), parameters added at lines
    988,989,990,991,992,993,994,995; constructor src/walker.cxx:967, reads at
    include/internalvariable.h:94; src/walker.cxx:797,969,970,971,972,973,974 *)
Definition t_WalkerDragStress : cls := mkCls "WalkerDragStress" "WalkerDragStress" "WalkerDragStress" "WalkerDragStress"
     [mkDecl "d0" DTobj None;
      mkDecl "d1" DTobj None;
      mkDecl "d2" DTobj None;
      mkDecl "D_xi" DTobj None;
      mkDecl "D_0" DTdouble None;
      mkDecl "softening" DTobj None;
      mkDecl "name" DTstring (Some (Dlit "D"));
      mkDecl "scaling" DTobj (Some (Dmake "ThermalScaling" "default_scaling()"))]
     [("name", Plain DTstring);
      ("scaling", Object "ThermalScaling");
      ("d0", Object "Interpolate");
      ("d1", Object "Interpolate");
      ("d2", Object "Interpolate");
      ("D_xi", Object "Interpolate");
      ("D_0", Plain DTdouble);
      ("softening", Object "SofteningModel")].

(** include/walker.h:448 registered; src/walker.cxx:1193 type(); src/walker.cxx:1211
    initialize(); src/walker.cxx:1198 parameters(), parameters added at lines
    1202,1203,1204,1205; constructor src/walker.cxx:1185, reads at
    include/internalvariable.h:94; src/walker.cxx:1096,1187,1188 *)
Definition t_FAKinematicHardening : cls := mkCls "FAKinematicHardening" "FAKinematicHardening" "FAKinematicHardening" "FAKinematicHardening"
     [mkDecl "c" DTobj None;
      mkDecl "g" DTobj None;
      mkDecl "name" DTstring (Some (Dlit "X"));
      mkDecl "scaling" DTobj (Some (Dmake "ThermalScaling" "default_scaling()"))]
     [("name", Plain DTstring);
      ("scaling", Object "ThermalScaling");
      ("c", Object "Interpolate");
      ("g", Object "Interpolate")].

(** include/walker.h:496 registered; src/walker.cxx:1274 type(); src/walker.cxx:1301
    initialize(); src/walker.cxx:1279 parameters(), parameters added at lines
    1283,1284,1285,1286,1287,1288,1289,1290,1291,1292,1294,1296; constructor
    src/walker.cxx:1258, reads at include/internalvariable.h:94;
    src/walker.cxx:1096,1260,1261,1262,1263,1264,1265,1266,1267,1268,1269 *)
Definition t_WalkerKinematicHardening : cls := mkCls "WalkerKinematicHardening" "WalkerKinematicHardening" "WalkerKinematicHardening" "WalkerKinematicHardening"
     [mkDecl "c0" DTobj None;
      mkDecl "c1" DTobj None;
      mkDecl "c2" DTobj None;
      mkDecl "l0" DTobj None;
      mkDecl "l1" DTobj None;
      mkDecl "l" DTobj None;
      mkDecl "b0" DTobj None;
      mkDecl "x0" DTobj None;
      mkDecl "x1" DTobj None;
      mkDecl "softening" DTobj None;
      mkDecl "scaling" DTobj (Some (Dmake "ThermalScaling" "default_scaling()"));
      mkDecl "name" DTstring (Some (Dlit "X"))]
     [("name", Plain DTstring);
      ("scaling", Object "ThermalScaling");
      ("c0", Object "Interpolate");
      ("c1", Object "Interpolate");
      ("c2", Object "Interpolate");
      ("l0", Object "Interpolate");
      ("l1", Object "Interpolate");
      ("l", Object "Interpolate");
      ("b0", Object "Interpolate");
      ("x0", Object "Interpolate");
      ("x1", Object "Interpolate");
      ("softening", Object "SofteningModel")].

(** include/walker.h:667 registered; src/walker.cxx:1678 type(); src/walker.cxx:1683
    initialize(); src/walker.cxx:1688 parameters(), parameters added at lines
    1692,1693,1694,1695,1696; constructor src/walker.cxx:1667, reads at
    src/walker.cxx:1669,1670,1671,1672,1673 *)
Definition t_TestFlowRule : cls := mkCls "TestFlowRule" "TestFlowRule" "TestFlowRule" "TestFlowRule"
     [mkDecl "eps0" DTdouble None;
      mkDecl "D" DTdouble None;
      mkDecl "n" DTdouble None;
      mkDecl "s0" DTdouble None;
      mkDecl "K" DTdouble None]
     [("eps0", Plain DTdouble);
      ("n", Plain DTdouble);
      ("s0", Plain DTdouble);
      ("K", Plain DTdouble);
      ("D", Plain DTdouble)].

(** include/walker.h:752 registered; src/walker.cxx:1822 type(); src/walker.cxx:1827
    initialize(); src/walker.cxx:1832 parameters(), parameters added at lines
    1836,1837,1838,1839,1840,1841,1842,1843,1844; constructor src/walker.cxx:1791, reads at
    src/walker.cxx:1793,1794,1795,1796,1797,1798,1799,1800,1801 *)
Definition t_WalkerFlowRule : cls := mkCls "WalkerFlowRule" "WalkerFlowRule" "WalkerFlowRule" "WalkerFlowRule"
     [mkDecl "eps0" DTobj None;
      mkDecl "softening" DTobj None;
      mkDecl "scaling" DTobj None;
      mkDecl "n" DTobj None;
      mkDecl "k" DTobj None;
      mkDecl "m" DTobj None;
      mkDecl "R" DTobj None;
      mkDecl "D" DTobj None;
      mkDecl "X" DTvecobj None]
     [("eps0", Object "Interpolate");
      ("softening", Object "SofteningModel");
      ("scaling", Object "ThermalScaling");
      ("n", Object "Interpolate");
      ("k", Object "Interpolate");
      ("m", Object "Interpolate");
      ("X", Objects "KinematicHardening");
      ("R", Object "IsotropicHardening");
      ("D", Object "DragStress")].

(** every static Register<T> of include/*.h, include/cp/*.h and include/math/*.h, cited above *)
Definition classes : list cls :=
  [t_NilDamageModel; t_PlanarDamageModel; t_WorkPlaneDamage; t_SigmoidTransformation;
   t_SwitchTransformation; t_SymmetryGroup; t_GeneralLattice; t_CubicLattice; t_HCPLattice;
   t_GeneralizedHuCocksSpecies; t_GeneralizedHuCocksPrecipitate;
   t_GeneralizedHuCocksPrecipitationModel; t_GeneralizedHuCocksHardening;
   t_HuCocksPrecipitationModel; t_DislocationSpacingHardening; t_HuCocksHardening;
   t_ArrheniusSlipRule; t_NoInelasticity; t_AsaroInelasticity; t_PowerLawInelasticity;
   t_CombinedInelasticity; t_StandardKinematicModel; t_DamagedStandardKinematicModel;
   t_TaylorModel; t_PTRTwinReorientation; t_SingleCrystalModel; t_FixedStrengthHardening;
   t_VocePerSystemHardening; t_FASlipHardening; t_GeneralLinearHardening;
   t_SimpleLinearHardening; t_LANLTiModel; t_SumSlipSingleStrengthHardening;
   t_VoceSlipHardening; t_LinearSlipHardening; t_KinematicPowerLawSlipRule;
   t_PowerLawSlipRule; t_PowerLawCreep; t_NormalizedPowerLawCreep; t_BlackburnMinimumCreep;
   t_SwindemanMinimumCreep; t_RegionKMCreep; t_NortonBaileyCreep; t_MukherjeeCreep;
   t_GenericCreep; t_MinCreep225Cr1MoCreep; t_J2CreepModel; t_NEMLScalarDamagedModel_sd;
   t_CombinedDamage; t_ClassicalCreepDamage; t_VonMisesEffectiveStress;
   t_MeanEffectiveStress; t_HuddlestonEffectiveStress; t_MaxPrincipalEffectiveStress;
   t_MaxSeveralEffectiveStress; t_SumSeveralEffectiveStress; t_ModularCreepDamage;
   t_LarsonMillerCreepDamage; t_WorkDamage; t_PowerLawDamage; t_ExponentialWorkDamage;
   t_IsotropicLinearElasticModel; t_CubicLinearElasticModel;
   t_TransverseIsotropicLinearElasticModel; t_TVPFlowRule; t_LinearIsotropicHardeningRule;
   t_InterpolatedIsotropicHardeningRule; t_VoceIsotropicHardeningRule;
   t_PowerLawIsotropicHardeningRule; t_CombinedIsotropicHardeningRule;
   t_LinearKinematicHardeningRule; t_CombinedHardeningRule; t_ConstantGamma; t_SatGamma;
   t_Chaboche; t_ChabocheVoceRecovery; t_PolynomialInterpolate;
   t_PiecewiseLinearInterpolate; t_GenericPiecewiseInterpolate;
   t_PiecewiseLogLinearInterpolate; t_PiecewiseSemiLogXLinearInterpolate;
   t_ConstantInterpolate; t_ExpInterpolate; t_PowerLawInterpolate; t_MTSShearInterpolate;
   t_MTSInterpolate; t_LarsonMillerRelation; t_SquareMatrix; t_CrystalOrientation;
   t_SmallStrainElasticity; t_SmallStrainPerfectPlasticity;
   t_SmallStrainRateIndependentPlasticity; t_SmallStrainCreepPlasticity;
   t_GeneralIntegrator; t_KMRegimeModel; t_RateIndependentAssociativeFlow;
   t_RateIndependentNonAssociativeHardening; t_IsoJ2; t_IsoKinJ2; t_IsoKinJ2I1; t_IsoJ2I1;
   t_SuperimposedViscoPlasticFlowRule; t_GPowerLaw; t_PerzynaFlowRule; t_LinearViscousFlow;
   t_ConstantFluidity; t_SaturatingFluidity; t_ChabocheFlowRule; t_YaguchiGr91FlowRule;
   t_WalkerKremplSwitchRule; t_SofteningModel; t_WalkerSofteningModel; t_ThermalScaling;
   t_ArrheniusThermalScaling; t_ConstantIsotropicHardening; t_WalkerIsotropicHardening;
   t_ConstantDragStress; t_WalkerDragStress; t_FAKinematicHardening;
   t_WalkerKinematicHardening; t_TestFlowRule; t_WalkerFlowRule].

(** The direct bases of every registered class and of the classes they derive from.  The
    instances of the templates InternalVariable (include/internalvariable.h:36) and
    IsoFunction (include/surfaces.h:60) are entered as their own bases NEMLObject and
    YieldSurface.  Declared at include/cp/crystaldamage.h:20,76,127,188,222,267,280,307;
    include/cp/crystallography.h:19,186,203,222;
    include/cp/generalizedhucocks.h:15,34,78,171; include/cp/hucocks.h:15,192,268,343;
    include/cp/inelasticity.h:20,87,169,264,359; include/cp/kinematics.h:20,157,291;
    include/cp/polycrystal.h:12,45; include/cp/postprocessors.h:15,29;
    include/cp/singlecrystal.h:46;
    include/cp/slipharden.h:26,96,154,219,283,360,434,514,537,635,706,745,788;
    include/cp/sliprules.h:26,83,151,187,218;
    include/creep.h:14,36,67,97,130,158,194,227,272,299,343,398; include/damage.h:18,66,146,
    186,241,290,336,344,363,382,404,423,448,475,516,555,608,680,715;
    include/elasticity.h:20,47,86,113; include/general_flow.h:15,80;
    include/hardening.h:19,30,45,77,102,134,158,186,201,228,257,300,311,338,372,461;
    include/history.h:273; include/interpolate.h:18,35,58,80,103,127,151,173,195,217,240;
    include/larsonmiller.h:18; include/math/matrix.h:68; include/math/rotations.h:114,246;
    include/models.h:26,106,135,206,289,373,468,561,627,733; include/ri_flow.h:17,53,115;
    include/surfaces.h:27,173,225,249,298;
    include/visco_flow.h:18,98,201,211,242,299,360,370,394,424,513;
    include/walker.h:20,111,131,156,174,200,226,251,290,324,355,396,423,451,508,626,670 *)
Definition hierarchy : dbases :=
  [("CrystalDamageModel", ["HistoryNEMLObject"]);
   ("NilDamageModel", ["CrystalDamageModel"]);
   ("PlanarDamageModel", ["CrystalDamageModel"]);
   ("SlipPlaneDamage", ["NEMLObject"]);
   ("WorkPlaneDamage", ["SlipPlaneDamage"]);
   ("TransformationFunction", ["NEMLObject"]);
   ("SigmoidTransformation", ["TransformationFunction"]);
   ("SwitchTransformation", ["TransformationFunction"]);
   ("SymmetryGroup", ["NEMLObject"]);
   ("GeneralLattice", ["NEMLObject"; "Lattice"]);
   ("CubicLattice", ["NEMLObject"; "Lattice"]);
   ("HCPLattice", ["NEMLObject"; "Lattice"]);
   ("GeneralizedHuCocksSpecies", ["NEMLObject"]);
   ("GeneralizedHuCocksPrecipitate", ["HistoryNEMLObject"]);
   ("GeneralizedHuCocksPrecipitationModel", ["HistoryNEMLObject"]);
   ("GeneralizedHuCocksHardening", ["SlipHardening"]);
   ("HuCocksPrecipitationModel", ["HistoryNEMLObject"]);
   ("DislocationSpacingHardening", ["SlipHardening"]);
   ("HuCocksHardening", ["SlipHardening"]);
   ("ArrheniusSlipRule", ["SlipStrengthSlipRule"]);
   ("InelasticModel", ["HistoryNEMLObject"]);
   ("NoInelasticity", ["InelasticModel"]);
   ("AsaroInelasticity", ["InelasticModel"]);
   ("PowerLawInelasticity", ["InelasticModel"]);
   ("CombinedInelasticity", ["InelasticModel"]);
   ("KinematicModel", ["HistoryNEMLObject"]);
   ("StandardKinematicModel", ["KinematicModel"]);
   ("DamagedStandardKinematicModel", ["StandardKinematicModel"]);
   ("PolycrystalModel", ["NEMLModel_ldi"]);
   ("TaylorModel", ["PolycrystalModel"]);
   ("CrystalPostprocessor", ["NEMLObject"]);
   ("PTRTwinReorientation", ["CrystalPostprocessor"]);
   ("SingleCrystalModel", ["NEMLModel_ldi"; "Solvable"]);
   ("SlipHardening", ["HistoryNEMLObject"]);
   ("FixedStrengthHardening", ["SlipHardening"]);
   ("VocePerSystemHardening", ["SlipHardening"]);
   ("FASlipHardening", ["SlipHardening"]);
   ("GeneralLinearHardening", ["SlipHardening"]);
   ("SimpleLinearHardening", ["SlipHardening"]);
   ("LANLTiModel", ["SlipHardening"]);
   ("SlipSingleHardening", ["SlipHardening"]);
   ("SlipSingleStrengthHardening", ["SlipSingleHardening"]);
   ("SumSlipSingleStrengthHardening", ["SlipSingleHardening"]);
   ("PlasticSlipHardening", ["SlipSingleStrengthHardening"]);
   ("VoceSlipHardening", ["PlasticSlipHardening"]);
   ("LinearSlipHardening", ["PlasticSlipHardening"]);
   ("SlipRule", ["HistoryNEMLObject"]);
   ("SlipMultiStrengthSlipRule", ["SlipRule"]);
   ("KinematicPowerLawSlipRule", ["SlipMultiStrengthSlipRule"]);
   ("SlipStrengthSlipRule", ["SlipMultiStrengthSlipRule"]);
   ("PowerLawSlipRule", ["SlipStrengthSlipRule"]);
   ("ScalarCreepRule", ["NEMLObject"]);
   ("BlackburnMinimumCreep", ["ScalarCreepRule"]);
   ("SwindemanMinimumCreep", ["ScalarCreepRule"]);
   ("PowerLawCreep", ["ScalarCreepRule"]);
   ("NormalizedPowerLawCreep", ["ScalarCreepRule"]);
   ("RegionKMCreep", ["ScalarCreepRule"]);
   ("NortonBaileyCreep", ["ScalarCreepRule"]);
   ("MukherjeeCreep", ["ScalarCreepRule"]);
   ("GenericCreep", ["ScalarCreepRule"]);
   ("MinCreep225Cr1MoCreep", ["ScalarCreepRule"]);
   ("CreepModel", ["NEMLObject"; "Solvable"]);
   ("J2CreepModel", ["CreepModel"]);
   ("NEMLDamagedModel_sd", ["NEMLModel_sd"]);
   ("NEMLScalarDamagedModel_sd", ["NEMLDamagedModel_sd"; "Solvable"]);
   ("ScalarDamage", ["NEMLObject"]);
   ("ScalarDamageRate", ["ScalarDamage"]);
   ("CombinedDamage", ["ScalarDamage"]);
   ("ClassicalCreepDamage", ["ScalarDamageRate"]);
   ("EffectiveStress", ["NEMLObject"]);
   ("VonMisesEffectiveStress", ["EffectiveStress"]);
   ("MeanEffectiveStress", ["EffectiveStress"]);
   ("HuddlestonEffectiveStress", ["EffectiveStress"]);
   ("MaxPrincipalEffectiveStress", ["EffectiveStress"]);
   ("MaxSeveralEffectiveStress", ["EffectiveStress"]);
   ("SumSeveralEffectiveStress", ["EffectiveStress"]);
   ("ModularCreepDamage", ["ScalarDamageRate"]);
   ("LarsonMillerCreepDamage", ["ScalarDamageRate"]);
   ("StandardScalarDamage", ["ScalarDamage"]);
   ("WorkDamage", ["ScalarDamage"]);
   ("PowerLawDamage", ["StandardScalarDamage"]);
   ("ExponentialWorkDamage", ["StandardScalarDamage"]);
   ("LinearElasticModel", ["NEMLObject"]);
   ("IsotropicLinearElasticModel", ["LinearElasticModel"]);
   ("CubicLinearElasticModel", ["LinearElasticModel"]);
   ("TransverseIsotropicLinearElasticModel", ["LinearElasticModel"]);
   ("GeneralFlowRule", ["HistoryNEMLObject"]);
   ("TVPFlowRule", ["GeneralFlowRule"]);
   ("HardeningRule", ["HistoryNEMLObject"]);
   ("IsotropicHardeningRule", ["HardeningRule"]);
   ("LinearIsotropicHardeningRule", ["IsotropicHardeningRule"]);
   ("InterpolatedIsotropicHardeningRule", ["IsotropicHardeningRule"]);
   ("VoceIsotropicHardeningRule", ["IsotropicHardeningRule"]);
   ("PowerLawIsotropicHardeningRule", ["IsotropicHardeningRule"]);
   ("CombinedIsotropicHardeningRule", ["IsotropicHardeningRule"]);
   ("KinematicHardeningRule", ["HardeningRule"]);
   ("LinearKinematicHardeningRule", ["KinematicHardeningRule"]);
   ("CombinedHardeningRule", ["HardeningRule"]);
   ("NonAssociativeHardening", ["HistoryNEMLObject"]);
   ("GammaModel", ["NEMLObject"]);
   ("ConstantGamma", ["GammaModel"]);
   ("SatGamma", ["GammaModel"]);
   ("Chaboche", ["NonAssociativeHardening"]);
   ("ChabocheVoceRecovery", ["NonAssociativeHardening"]);
   ("HistoryNEMLObject", ["NEMLObject"]);
   ("Interpolate", ["NEMLObject"]);
   ("PolynomialInterpolate", ["Interpolate"]);
   ("GenericPiecewiseInterpolate", ["Interpolate"]);
   ("PiecewiseLinearInterpolate", ["Interpolate"]);
   ("PiecewiseLogLinearInterpolate", ["Interpolate"]);
   ("PiecewiseSemiLogXLinearInterpolate", ["Interpolate"]);
   ("ConstantInterpolate", ["Interpolate"]);
   ("ExpInterpolate", ["Interpolate"]);
   ("PowerLawInterpolate", ["Interpolate"]);
   ("MTSShearInterpolate", ["Interpolate"]);
   ("MTSInterpolate", ["Interpolate"]);
   ("LarsonMillerRelation", ["NEMLObject"; "Solvable"]);
   ("SquareMatrix", ["NEMLObject"; "Matrix"]);
   ("Orientation", ["Quaternion"]);
   ("CrystalOrientation", ["NEMLObject"; "Orientation"]);
   ("NEMLModel", ["HistoryNEMLObject"]);
   ("NEMLModel_ldi", ["NEMLModel"]);
   ("NEMLModel_sd", ["NEMLModel"]);
   ("SubstepModel_sd", ["NEMLModel_sd"; "Solvable"]);
   ("SmallStrainElasticity", ["NEMLModel_sd"]);
   ("SmallStrainPerfectPlasticity", ["SubstepModel_sd"]);
   ("SmallStrainRateIndependentPlasticity", ["SubstepModel_sd"]);
   ("SmallStrainCreepPlasticity", ["NEMLModel_sd"; "Solvable"]);
   ("GeneralIntegrator", ["SubstepModel_sd"]);
   ("KMRegimeModel", ["NEMLModel_sd"]);
   ("RateIndependentFlowRule", ["HistoryNEMLObject"]);
   ("RateIndependentAssociativeFlow", ["RateIndependentFlowRule"]);
   ("RateIndependentNonAssociativeHardening", ["RateIndependentFlowRule"]);
   ("YieldSurface", ["NEMLObject"]);
   ("IsoKinJ2", ["YieldSurface"]);
   ("IsoJ2", ["YieldSurface"]);
   ("IsoKinJ2I1", ["YieldSurface"]);
   ("IsoJ2I1", ["YieldSurface"]);
   ("ViscoPlasticFlowRule", ["HistoryNEMLObject"]);
   ("SuperimposedViscoPlasticFlowRule", ["ViscoPlasticFlowRule"]);
   ("GFlow", ["NEMLObject"]);
   ("GPowerLaw", ["GFlow"]);
   ("PerzynaFlowRule", ["ViscoPlasticFlowRule"]);
   ("LinearViscousFlow", ["ViscoPlasticFlowRule"]);
   ("FluidityModel", ["NEMLObject"]);
   ("ConstantFluidity", ["FluidityModel"]);
   ("SaturatingFluidity", ["FluidityModel"]);
   ("ChabocheFlowRule", ["ViscoPlasticFlowRule"]);
   ("YaguchiGr91FlowRule", ["ViscoPlasticFlowRule"]);
   ("WalkerKremplSwitchRule", ["GeneralFlowRule"]);
   ("SofteningModel", ["NEMLObject"]);
   ("WalkerSofteningModel", ["SofteningModel"]);
   ("ThermalScaling", ["NEMLObject"]);
   ("ArrheniusThermalScaling", ["ThermalScaling"]);
   ("IsotropicHardening", ["NEMLObject"]);
   ("ConstantIsotropicHardening", ["IsotropicHardening"]);
   ("WalkerIsotropicHardening", ["IsotropicHardening"]);
   ("DragStress", ["NEMLObject"]);
   ("ConstantDragStress", ["DragStress"]);
   ("WalkerDragStress", ["DragStress"]);
   ("KinematicHardening", ["NEMLObject"]);
   ("FAKinematicHardening", ["KinematicHardening"]);
   ("WalkerKinematicHardening", ["KinematicHardening"]);
   ("WrappedViscoPlasticFlowRule", ["ViscoPlasticFlowRule"]);
   ("TestFlowRule", ["WrappedViscoPlasticFlowRule"]);
   ("WalkerFlowRule", ["WrappedViscoPlasticFlowRule"])].
