(** C102: every class receives the parameters it declares. *)
From Coq Require Import String Ascii ZArith List Bool Lra.
From Verif Require Import Base.
From Verif Require Import DeclModel.
From Verif Require Import DeclTable.
From Verif Require Import DeclSpec.
From Verif Require Import DeclProofs.
Import ListNotations.

(** Every class but the two lattices: if no parameter is missing and the objects are of the
    classes needed, an object of that class is made and its constructor receives, for each of
    its parameters, the last value given or else the default as written, and nothing else. *)
Theorem C102_received : forall c l, In c classes -> ~ odd c -> well_typed c l ->
  (forall k, ~ missing c l k) ->
  (forall n a v, In (n, a) (c_reads c) -> wanted c l n v -> suits hierarchy a v) ->
  exists vs, dbuild classes hierarchy (c_name c) l = DOk (c_name c, vs) /\
    (forall n x, In (n, x) vs -> has_parameter c n /\ exists v, x = Some v /\ wanted c l n v) /\
    (forall n, has_parameter c n -> exists v, wanted c l n v /\ In (n, Some v) vs).
Proof. exact decl_received. Qed.
Print Assumptions C102_received.

(** If parameters are missing, the error names the class and exactly those parameters. *)
Theorem C102_missing : forall c l n, In c classes -> ~ odd c -> well_typed c l -> missing c l n ->
  exists ms, dbuild classes hierarchy (c_name c) l = DErr (DUndefined (c_name c) ms) /\
             forall k, In k ms <-> missing c l k.
Proof. exact decl_missing. Qed.
Print Assumptions C102_missing.

(** If an object is not of the class needed, or null, the wrong-type error is thrown. *)
Theorem C102_wrong_class : forall c l n a v, In c classes -> ~ odd c -> well_typed c l ->
  (forall k, ~ missing c l k) -> In (n, a) (c_reads c) -> wanted c l n v -> ~ suits hierarchy a v ->
  dbuild classes hierarchy (c_name c) l = DErr DWrongType.
Proof. exact decl_wrong_class. Qed.
Print Assumptions C102_wrong_class.

(** A name the class does not have is refused with the unknown-parameter error. *)
Theorem C102_unknown : forall c l1 n v l2, In c classes -> well_typed c l1 -> ~ has_parameter c n ->
  dbuild classes hierarchy (c_name c) (l1 ++ (n, v) :: l2) = DErr (DUnknown (c_name c) n).
Proof. exact decl_unknown. Qed.
Print Assumptions C102_unknown.

(** No default object is of a class its own constructor refuses. *)
Theorem C102_default_suits : forall c d df a, In c classes -> ~ odd c -> In d (c_decls c) ->
  d_default d = Some df -> In (d_name d, a) (c_reads c) -> suits hierarchy a (meant (d_type d) df).
Proof. exact decl_default_suits. Qed.
Print Assumptions C102_default_suits.

(** Different classes are registered under different names. *)
Theorem C102_names : NoDup (map c_type classes) /\ forall c, In c classes -> c_type c = c_name c.
Proof.
  split.
  - assert (E : map c_type classes = map c_name classes).
    { apply map_ext_in. intros x Hx. now apply classes_self_In. }
    rewrite E. apply distinct_NoDup, classes_distinct.
  - intros c H. now apply classes_self_In.
Qed.
Print Assumptions C102_names.

(** For every object a constructor needs there is a registered class of the kind. *)
Theorem C102_obtainable : forall c n a k, In c classes -> In (n, a) (c_reads c) ->
  a = Object k \/ a = Objects k -> exists x, In x classes /\ is_a hierarchy (c_name x) k.
Proof. exact decl_obtainable. Qed.
Print Assumptions C102_obtainable.

(** Finding: twin systems given to the two lattices as their declared type never arrive. *)
Theorem C102_lattice_refuted : forall (tw : list dslip) (a : R), tw <> [] ->
  exists vs, dbuild classes hierarchy "CubicLattice" [("a", Xdouble a); ("twin_systems", Xslip tw)]%string
             = DOk ("CubicLattice"%string, vs) /\
    In ("twin_systems"%string, Some (Xtwin [])) vs /\
    ~ exists v, v <> Xtwin [] /\ In ("twin_systems"%string, Some v) vs.
Proof.
  intros tw a _. eexists. split; [vm_compute; reflexivity|]. split; [simpl; tauto|].
  intros (v & N & H). simpl in H.
  repeat destruct H as [H|H]; try contradiction; try (apply (f_equal fst) in H; cbn in H; discriminate).
  apply N. apply (f_equal snd) in H. cbn in H. congruence.
Qed.
Print Assumptions C102_lattice_refuted.

(** Finding: through the C++ interface a value of another type than the declared one, say an
    integer for a real number, is accepted and the constructor reads an indeterminate number. *)
Theorem C102_other_type_refuted :
  (forall t v, type_of v <> t -> slot_get t (slot_of v) = slot_get t blank) /\
  forall z b, exists vs,
    dbuild classes hierarchy "SigmoidTransformation" [("c", Xint z); ("beta", Xdouble b)]%string
    = DOk ("SigmoidTransformation"%string, vs) /\ In ("c"%string, None) vs.
Proof.
  split; [exact wrong_type_silent|]. intros z b. rewrite sigmoid_int. eexists. split; [reflexivity|]. now left.
Qed.
Print Assumptions C102_other_type_refuted.

(** Finding: a character literal assigned to a text parameter arrives whole exactly if it has
    one character; of a longer one only the first character arrives. *)
Theorem C102_literal_refuted :
  (forall s, slot_get DTstring (slot_of_literal s) = Some (Xstring s) <-> String.length s = 1%nat) /\
  slot_get DTstring (slot_of_literal "strength") = Some (Xstring "s").
Proof. split; [exact literal_exact|reflexivity]. Qed.
Print Assumptions C102_literal_refuted.

(** ** Concrete cases *)
(** a Voce rule with the three interpolates it needs *)
Definition voce_request : list (string * dval) :=
  [("s0", Xobj (Some (mkDobj "ConstantInterpolate" "100")));
   ("R", Xobj (Some (mkDobj "ConstantInterpolate" "1")));
   ("d", Xobj (Some (mkDobj "PolynomialInterpolate" "2 + T")));
   ("R", Xobj (Some (mkDobj "ConstantInterpolate" "20")))]%string.

Lemma in_classes n c : dnamed classes n = Some c -> In c classes.
Proof. intros H. apply List.find_some in H. apply H. Qed.

Example C102_case_in : In t_VoceIsotropicHardeningRule classes /\ ~ odd t_VoceIsotropicHardeningRule.
Proof.
  split; [apply (in_classes "VoceIsotropicHardeningRule"); vm_compute; reflexivity|].
  intros [H|H]; discriminate.
Qed.
Example C102_case_typed : well_typed t_VoceIsotropicHardeningRule voce_request.
Proof.
  intros n v H. simpl in H.
  destruct H as [H|[H|[H|[H|[]]]]]; injection H as <- <-; cbn [c_decls t_VoceIsotropicHardeningRule].
  - exists (mkDecl "s0" DTobj None). simpl. auto.
  - exists (mkDecl "R" DTobj None). simpl. auto.
  - exists (mkDecl "d" DTobj None). simpl. auto.
  - exists (mkDecl "R" DTobj None). simpl. auto.
Qed.
Example C102_case_full : forall k, ~ missing t_VoceIsotropicHardeningRule voce_request k.
Proof.
  intros k (N & d & Hd & <- & _). simpl in Hd.
  destruct Hd as [<-|[<-|[<-|[]]]]; cbn in N; eapply N; simpl; eauto.
Qed.
(** the last value given to R arrives *)
Example C102_case_value :
  dbuild classes hierarchy "VoceIsotropicHardeningRule" voce_request =
  DOk ("VoceIsotropicHardeningRule",
       [("s0", Some (Xobj (Some (mkDobj "ConstantInterpolate" "100"))));
        ("R", Some (Xobj (Some (mkDobj "ConstantInterpolate" "20"))));
        ("d", Some (Xobj (Some (mkDobj "PolynomialInterpolate" "2 + T"))))])%string.
Proof. vm_compute. reflexivity. Qed.
(** one missing *)
Example C102_case_missing :
  dbuild classes hierarchy "VoceIsotropicHardeningRule" (firstn 2 voce_request) =
  DErr (DUndefined "VoceIsotropicHardeningRule" ["d"])%string.
Proof. vm_compute. reflexivity. Qed.
(** a yield surface is no interpolate *)
Example C102_case_wrong :
  dbuild classes hierarchy "VoceIsotropicHardeningRule"
    (voce_request ++ [("d"%string, Xobj (Some (mkDobj "IsoJ2" "")))]) = DErr DWrongType.
Proof. vm_compute. reflexivity. Qed.
(** a text default arrives whole *)
Example C102_case_text :
  exists vs, dbuild classes hierarchy "CrystalOrientation" [("angles", Xvecdouble [0; 0; 0]%R)]%string
             = DOk ("CrystalOrientation"%string, vs) /\
             In ("angle_type", Some (Xstring "radians"))%string vs.
Proof. eexists. split; [vm_compute; reflexivity|simpl; tauto]. Qed.
(** a damage model is a small strain model *)
Example C102_case_derives :
  is_a hierarchy "NEMLScalarDamagedModel_sd" "NEMLModel_sd" /\ ~ is_a hierarchy "SingleCrystalModel" "NEMLModel_sd".
Proof.
  split; [|intros H]; [|apply derives_is_a in H; revert H]; [apply derives_is_a|]; vm_compute; (reflexivity || discriminate).
Qed.
