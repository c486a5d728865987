(** Cases of building objects from Python. *)
From Coq Require Import String Ascii ZArith List Arith Lia Lra Permutation.
From Verif Require Import Base.
From Verif Require Import HistModel InterpModel TextModel ParseModel TextProofs ParseSpec ParseProofs PycModel PycSpec PycProofs.
Import ListNotations.
Open Scope string_scope.
Open Scope R_scope.

(** three classes with the parameters they have in the code: src/interpolate.cxx:406-413, src/elasticity.cxx:78-88,
    src/models.cxx:468-479 *)
Definition py_elastic : schema := [("m1", PT_object, None); ("m1_type", PT_string, None); ("m2", PT_object, None); ("m2_type", PT_string, None)].
Definition py_small : schema := [("elastic", PT_object, None); ("alpha", PT_object, Some (VObject (constant 0))); ("truesdell", PT_bool, Some (VBool true))].
Definition py_factory : factory := mkFactory (fun t =>
  if String.eqb t "ConstantInterpolate" then Some [("v", PT_double, None)]
  else if String.eqb t "IsotropicLinearElasticModel" then Some py_elastic
  else if String.eqb t "SmallStrainElasticity" then Some py_small else None) (fun _ _ => true).
Lemma py_sound : sound_factory py_factory.
Proof.
  assert (C : exists d : option pval, setups py_factory "ConstantInterpolate" = Some [("v", PT_double, d)]) by (exists None; reflexivity).
  assert (W : wf_obj py_factory (constant 0)).
  { unfold constant. apply (WF_obj py_factory _ _ [("v", PT_double, None)]); try reflexivity.
    - discriminate.
    - constructor; [intros [] | constructor].
    - intros [E|[]]; discriminate E.
    - intros k v [E|[]]. assert (k = "v") by congruence. assert (v = VDouble 0) by congruence. subst. exists PT_double, None. split; [left; reflexivity | constructor]. }
  split; [| split; [exact C | split; reflexivity]].
  intros t s H. cbn [setups py_factory] in H.
  destruct (String.eqb_spec t "ConstantInterpolate") as [->|_];
    [| destruct (String.eqb_spec t "IsotropicLinearElasticModel") as [->|_]; [| destruct (String.eqb_spec t "SmallStrainElasticity") as [->|_]; [| discriminate H]]]; injection H as <-;
    (split; [discriminate |]); (split; [repeat constructor; cbn; intuition discriminate |]); (split; [cbn; intuition discriminate |]); intros n ty x I; cbn in I;
    repeat match goal with H : _ \/ _ |- _ => destruct H end; try contradiction; try discriminate.
  - assert (ty = PT_object) by congruence. assert (x = VObject (constant 0)) by congruence. subst. constructor. exact W.
  - assert (ty = PT_bool) by congruence. assert (x = VBool true) by congruence. subst. constructor.
Qed.
(** elastic = IsotropicLinearElasticModel(150000.0, "youngs", 0.3, "poissons") *)
Definition py_req : list string := ["m1"; "m1_type"; "m2"; "m2_type"].
Definition py_args (E nu : R) : list pyv := [PyFloat E; PyStr (t_of "youngs"); PyFloat nu; PyStr (t_of "poissons")].
Definition py_solid (E nu : R) : object :=
  Obj "IsotropicLinearElasticModel" [("m1", VObject (constant E)); ("m1_type", VString (t_of "youngs")); ("m2", VObject (constant nu)); ("m2_type", VString (t_of "poissons"))].
Lemma py_solid_built E nu : create_python py_factory "IsotropicLinearElasticModel" py_req (py_args E nu) [] = POk (py_solid E nu).
Proof. reflexivity. Qed.
(** model = SmallStrainElasticity(elastic, truesdell = False, alpha = 1.0e-5), and with the keywords exchanged *)
Definition py_model (E nu a : R) (td : bool) : object :=
  Obj "SmallStrainElasticity" [("elastic", VObject (py_solid E nu)); ("alpha", VObject (constant a)); ("truesdell", VBool td)].
Lemma py_model_built E nu a :
  create_python py_factory "SmallStrainElasticity" ["elastic"] [PyObj (py_solid E nu)] [("truesdell", PyBool false); ("alpha", PyFloat a)] = POk (py_model E nu a false) /\
  create_python py_factory "SmallStrainElasticity" ["elastic"] [PyObj (py_solid E nu)] [("alpha", PyFloat a); ("truesdell", PyInt 0)] = POk (py_model E nu a false) /\
  create_python py_factory "SmallStrainElasticity" ["elastic"] [PyObj (py_solid E nu)] [] = POk (py_model E nu 0 true).
Proof. split; [reflexivity | split; reflexivity]. Qed.
Lemma py_args_writable E nu : forall v, In v (py_args E nu ++ map snd (@nil (string * pyv))) -> writable py_factory v.
Proof. intros v H. cbn in H. repeat destruct H as [<-|H]; try destruct H; constructor; reflexivity. Qed.
Lemma py_model_pickled : setstate py_factory (getstate (py_solid 150000 (3 / 10))) = POk (round_obj (py_solid 150000 (3 / 10))).
Proof.
  apply (pickled py_factory "IsotropicLinearElasticModel" py_elastic py_req (py_args 150000 (3 / 10)) []); try reflexivity.
  - exact py_sound.
  - repeat constructor; cbn; intuition discriminate.
  - constructor.
  - apply py_args_writable.
Qed.
(** a required parameter given by keyword *)
Lemma py_by_keyword E nu : create_python py_factory "SmallStrainElasticity" ["elastic"] [] [("elastic", PyObj (py_solid E nu))] = PErr StdException.
Proof. reflexivity. Qed.
(** given both ways: the keyword counts, without a word *)
Lemma py_both E nu E' nu' :
  create_python py_factory "SmallStrainElasticity" ["elastic"] [PyObj (py_solid E nu)] [("elastic", PyObj (py_solid E' nu'))] = POk (py_model E' nu' 0 true).
Proof. reflexivity. Qed.
(** an unknown keyword with a string is not reported as unknown *)
Lemma py_unknown E nu v :
  create_python py_factory "SmallStrainElasticity" ["elastic"] [PyObj (py_solid E nu)] [("beta", PyFloat v)] = PErr (UnknownParameter "beta") /\
  create_python py_factory "SmallStrainElasticity" ["elastic"] [PyObj (py_solid E nu)] [("beta", PyStr (t_of "x"))] = PErr StdException.
Proof. split; reflexivity. Qed.
(** pickling keeps six digits *)
Lemma py_pickle_changes : exists o o', create_python py_factory "IsotropicLinearElasticModel" py_req (py_args 1234567 (3 / 10)) [] = POk o /\
  setstate py_factory (getstate o) = POk o' /\ o' <> o.
Proof.
  exists (py_solid 1234567 (3 / 10)), (round_obj (py_solid 1234567 (3 / 10))). split; [apply py_solid_built |]. split.
  - apply (pickled py_factory "IsotropicLinearElasticModel" py_elastic py_req (py_args 1234567 (3 / 10)) []); try reflexivity.
    + exact py_sound.
    + repeat constructor; cbn; intuition discriminate.
    + constructor.
    + apply py_args_writable.
  - intros E. unfold py_solid, constant in E. cbn [round_obj round_val map fst snd] in E. injection E as E _. exact (round6_1234567 E).
Qed.
(** general: as many positional arguments as required parameters, whatever the keywords *)
Lemma wrong_count F t s req args kw : setups F t = Some s -> length args <> length req -> create_python F t req args kw = PErr StdException.
Proof. intros Hs L. unfold create_python, provide_parameters. rewrite Hs. cbn [pbind]. destruct (Nat.eqb_spec (length args) (length req)); [contradiction | reflexivity]. Qed.
Lemma both_ways F t s req args args' kw o : setups F t = Some s -> NoDup (declared s) -> NoDup req -> NoDup (map fst kw) ->
  length args = length req -> length args' = length req ->
  (forall n v v', In (n, v) (combine req args) -> In (n, v') (combine req args') -> v = v' \/ (In n (map fst kw) /\ exists ty d x, In (n, ty, d) s /\ means ty v' x)) ->
  create_python F t req args kw = POk o -> create_python F t req args' kw = POk o.
Proof.
  intros Hs N Nr Nk L L' H K. apply (construct F t s req args kw o Hs N Nr Nk) in K. destruct K as [_ (D & ps & E & Hn & Ac & Hp)].
  apply (construct F t s req args' kw o Hs N Nr Nk). split; [exact L' |].
  assert (Pair : forall n v', In (n, v') (combine req args') -> exists v, In (n, v) (combine req args)).
  { intros n v' I. apply in_combine_l in I. rewrite <- (combine_fst req args) in I by lia. apply in_map_iff in I. destruct I as ([m v] & Em & I). cbn in Em. subst. eauto. }
  assert (Pair' : forall n v, In (n, v) (combine req args) -> exists v', In (n, v') (combine req args')).
  { intros n v I. apply in_combine_l in I. rewrite <- (combine_fst req args') in I by lia. apply in_map_iff in I. destruct I as ([m v'] & Em & I). cbn in Em. subst. eauto. }
  split.
  - intros n v' I. apply in_app_or in I. destruct I as [I|I]; [| apply D; apply in_or_app; right; exact I].
    destruct (Pair n v' I) as (v & J). destruct (H n v v' J I) as [<-|[_ Q]]; [apply D; apply in_or_app; left; exact J | exact Q].
  - exists ps. split; [exact E |]. split; [exact Hn |]. split; [exact Ac |]. intros n x I. destruct (Hp n x I) as (ty & d & Is & [(v & A & M)|(A & Ed)]); exists ty, d; (split; [exact Is |]).
    + left. exists v. split; [| exact M]. destruct A as [A|[A B]]; [left; exact A | right]. split; [exact A |]. destruct (Pair' n v B) as (v' & J). destruct (H n v v' B J) as [<-|[Q _]]; [exact J | contradiction].
    + right. split; [| exact Ed]. destruct A as [A B]. split; [exact A |]. rewrite combine_fst in B |- * by lia. exact B.
Qed.
Lemma mixed_list l v w x o : In v l -> In w l -> number v x -> an_object w o -> cast PT_vec_object (PySeq l) = None.
Proof.
  intros V W Hv Hw. destruct (cast PT_vec_object (PySeq l)) as [y|] eqn:E; [|reflexivity]. exfalso. apply cast_means in E. inversion E; subst; destruct H as (vs & Ev & H); assert (vs = l) by congruence; subst.
  - clear - W Hw H. induction H as [|a b c d P Q IH]; [destruct W |]. destruct W as [->|W]; [exact (number_not_object _ _ _ P Hw) | auto].
  - clear - V Hv H. induction H as [|a b c d P Q IH]; [destruct V |]. destruct V as [->|V]; [exact (number_not_object _ _ _ Hv P) | auto].
Qed.
