(** Building objects from Python *)
From Coq Require Import String Ascii ZArith List Arith Lia Lra Permutation.
From Verif Require Import Base.
From Verif Require Import HistModel InterpModel TextModel ParseModel TextProofs ParseSpec ParseProofs PycModel PycSpec PycProofs PycEx.
Import ListNotations.
Open Scope string_scope.
Open Scope R_scope.

(** ** C92 *)
(** what each Python value stands for, by the declared type of the parameter *)
Theorem C92_values : forall ty v x, cast ty v = Some x <-> means ty v x.
Proof. exact @cast_means. Qed.
Print Assumptions C92_values.
(** a call returns an object exactly when there are as many positional arguments as required parameters and every argument is declared, means something of its type and the constructor accepts the whole; and it is the object so described, with the defaults for what was not given *)
Theorem C92_construct : forall F t s req args kw o, setups F t = Some s -> NoDup (declared s) -> NoDup req -> NoDup (map fst kw) ->
  (create_python F t req args kw = POk o <-> length args = length req /\ described F t s (combine req args) kw o).
Proof. exact @construct. Qed.
Print Assumptions C92_construct.
Example C92_case : forall E nu a,
  create_python py_factory "IsotropicLinearElasticModel" py_req (py_args E nu) [] = POk (py_solid E nu) /\
  create_python py_factory "SmallStrainElasticity" ["elastic"] [PyObj (py_solid E nu)] [("truesdell", PyBool false); ("alpha", PyFloat a)] = POk (py_model E nu a false) /\
  create_python py_factory "SmallStrainElasticity" ["elastic"] [PyObj (py_solid E nu)] [] = POk (py_model E nu 0 true).
Proof. intros E nu a. split; [apply py_solid_built |]. destruct (py_model_built E nu a) as (A & _ & B). split; assumption. Qed.
(** keyword arguments may be given in any order *)
Theorem C92_keyword_order : forall F t s req args kw kw' o, setups F t = Some s -> NoDup (declared s) -> NoDup req -> NoDup (map fst kw) -> Permutation kw kw' ->
  create_python F t req args kw = POk o -> create_python F t req args kw' = POk o.
Proof. exact @keyword_order. Qed.
Print Assumptions C92_keyword_order.
(** required parameters given neither way are reported, all of them and in the order of declaration *)
Theorem C92_missing : forall F t s req args kw, setups F t = Some s -> NoDup (declared s) -> NoDup req -> NoDup (map fst kw) -> length args = length req ->
  (forall n v, In (n, v) (combine req args ++ kw) -> exists ty d x, In (n, ty, d) s /\ means ty v x) ->
  let miss := map (fun e => fst (fst e)) (filter (fun e => match snd e with None => negb (mem (fst (fst e)) (req ++ map fst kw)) | Some _ => false end) s) in
  miss <> [] -> create_python F t req args kw = PErr (UndefinedParameters t miss).
Proof. exact @construct_missing. Qed.
Print Assumptions C92_missing.
(** a keyword that is not a parameter never yields an object *)
Theorem C92_unknown : forall F t s req args kw n v o, setups F t = Some s -> NoDup (declared s) -> In (n, v) kw -> ~ In n (declared s) -> create_python F t req args kw <> POk o.
Proof. exact @unknown_keyword. Qed.
Print Assumptions C92_unknown.
(** but only with a number is it reported as unknown: otherwise the error is a failed cast to double *)
Theorem C92_unknown_error_refuted : forall F t s args n v kw, setups F t = Some s -> args = [] -> ~ In n (declared s) ->
  create_python F t [] args ((n, v) :: kw) = match to_double v with Some _ => PErr (UnknownParameter n) | None => PErr StdException end.
Proof. exact @unknown_first. Qed.
Print Assumptions C92_unknown_error_refuted.
(** required parameters cannot be given by keyword: any other number of positional arguments is an error *)
Theorem C92_by_keyword_refuted : forall F t s req args kw, setups F t = Some s -> length args <> length req -> create_python F t req args kw = PErr StdException.
Proof. exact @wrong_count. Qed.
Print Assumptions C92_by_keyword_refuted.
Example C92_by_keyword_case : forall E nu, create_python py_factory "SmallStrainElasticity" ["elastic"] [] [("elastic", PyObj (py_solid E nu))] = PErr StdException.
Proof. exact py_by_keyword. Qed.
(** a parameter given both ways is no error: the positional argument has no effect *)
Theorem C92_twice_refuted : forall F t s req args args' kw o, setups F t = Some s -> NoDup (declared s) -> NoDup req -> NoDup (map fst kw) ->
  length args = length req -> length args' = length req ->
  (forall n v v', In (n, v) (combine req args) -> In (n, v') (combine req args') -> v = v' \/ (In n (map fst kw) /\ exists ty d x, In (n, ty, d) s /\ means ty v' x)) ->
  create_python F t req args kw = POk o -> create_python F t req args' kw = POk o.
Proof. exact @both_ways. Qed.
Print Assumptions C92_twice_refuted.
Example C92_twice_case : forall E nu E' nu',
  create_python py_factory "SmallStrainElasticity" ["elastic"] [PyObj (py_solid E nu)] [("elastic", PyObj (py_solid E' nu'))] = POk (py_model E' nu' 0 true).
Proof. exact py_both. Qed.
(** a number stands for a constant and an object for itself, but a list may not have both *)
Theorem C92_mixed_list_refuted : forall l v w x o, In v l -> In w l -> number v x -> an_object w o -> cast PT_vec_object (PySeq l) = None.
Proof. exact @mixed_list. Qed.
Print Assumptions C92_mixed_list_refuted.
(** a pickled object comes back with its doubles to six digits and everything else as it was *)
Theorem C92_pickle : forall F t s req args kw o, sound_factory F -> setups F t = Some s -> NoDup req -> NoDup (map fst kw) ->
  (forall v, In v (args ++ map snd kw) -> writable F v) -> create_python F t req args kw = POk o -> setstate F (getstate o) = POk (round_obj o).
Proof. exact @pickled. Qed.
Print Assumptions C92_pickle.
Example C92_pickle_case : sound_factory py_factory /\ setstate py_factory (getstate (py_solid 150000 (3 / 10))) = POk (round_obj (py_solid 150000 (3 / 10))).
Proof. split; [exact py_sound | exact py_model_pickled]. Qed.
(** so a copy through pickle is not the same model *)
Theorem C92_pickle_exact_refuted : exists o o', create_python py_factory "IsotropicLinearElasticModel" py_req (py_args 1234567 (3 / 10)) [] = POk o /\
  setstate py_factory (getstate o) = POk o' /\ o' <> o.
Proof. exact @py_pickle_changes. Qed.
Print Assumptions C92_pickle_exact_refuted.
