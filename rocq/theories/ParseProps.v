(** Property theorems about saving, loading and creating objects (C12-C14). *)
From Coq Require Import String Ascii ZArith.
From Verif Require Import Base.
From Verif Require Import HistModel.
From Verif Require Import TextModel.
From Verif Require Import TextProofs.
From Verif Require Import ParseModel.
From Verif Require Import ParseSpec.
From Verif Require Import ParseProofs.

(** C12: every well formed object reloads; all its integers, booleans, strings,
    slip and twin systems, nested objects and vectors are unchanged, and its
    doubles are the ones denoted by six significant digits ([round_obj]). *)
Theorem C12_save_reload : forall F o nm, wf_obj F o ->
  get_object F (make_object_node nm o) = POk (round_obj o).
Proof. exact roundtrip. Qed.
(** With doubles of at most six significant digits the object reloads unchanged. *)
Theorem C12_save_reload_same : forall F o nm, wf_obj F o -> short_obj o ->
  get_object F (make_object_node nm o) = POk o.
Proof. intros F o nm H S. rewrite (roundtrip F o nm H), (round_short o S). reflexivity. Qed.
(** Saving and reloading once more changes nothing. *)
Theorem C12_second_reload_same : forall F o o' nm nm', wf_obj F o ->
  get_object F (make_object_node nm o) = POk o' -> get_object F (make_object_node nm' o') = POk o'.
Proof.
  intros F o o' nm nm' H E. rewrite (roundtrip F o nm H) in E. inversion E. apply reload_exact_second. exact H.
Qed.
(** A string parameter that is blank does not survive: the reader follows a null
    pointer. *)
Theorem C12_blank_string_refuted : exists F o, o = Obj "T" [("s"%string, VString [])] /\
  setups F "T" = Some [("s"%string, PT_string, None)] /\
  get_object F (make_object_node "x" o) = PErr NullDeref.
Proof.
  exists (mkFactory (fun t => if String.eqb t "T" then Some [("s"%string, PT_string, None)] else None) (fun _ _ => true)).
  eexists. split; [reflexivity|]. split; reflexivity.
Qed.

(** C13: false of the code. *)
Theorem C13_double_reload_refuted : exists x, stod (show_double x) <> Some x.
Proof. exists (IZR 1234567). rewrite stod_show_double. intros H. inversion H. exact (round6_1234567 H1). Qed.
(** What does hold: the reloaded value differs by at most five parts in a million. *)
Theorem C13_double_reload_close_partial : forall x, exists y,
  stod (show_double x) = Some y /\ Rabs (y - x) <= Rabs x * (5 / 1000000).
Proof.
  intros x. exists (round6 x). split; [apply stod_show_double|]. pose proof (round6_close x) as H.
  lra.
Qed.
Theorem C13_short_double_exact_partial : forall x, six_digits x -> stod (show_double x) = Some x.
Proof. intros x H. rewrite stod_show_double, round6_short by exact H. reflexivity. Qed.
(** Integers always reload exactly. *)
Theorem C13_int_reload : forall z, int32 z -> stoi (show_int z) = Some z.
Proof. exact stoi_show. Qed.
Theorem C13_size_reload : forall z, uint64 z -> stoul (show_int z) = Some z.
Proof. exact stoul_show. Qed.

(** C14 *)
Theorem C14_unknown_parameter : forall n v p, ~ In n (map fst (ps_schema p)) ->
  assign_parameter n v p = PErr (UnknownParameter n).
Proof.
  intros n v p H. unfold assign_parameter, is_parameter, names. destruct (mem n (map fst (ps_schema p))) eqn:E; [|reflexivity].
  apply mem_In in E. contradiction.
Qed.
Theorem C14_known_parameter_assigned : forall n v p, In n (map fst (ps_schema p)) ->
  exists p', assign_parameter n v p = POk p' /\ find n (ps_vals p') = Some v /\
    ps_schema p' = ps_schema p /\ forall m, m <> n -> find m (ps_vals p') = find m (ps_vals p).
Proof.
  intros n v p H. unfold assign_parameter, is_parameter, names. apply mem_In in H. rewrite H. eexists. split; [reflexivity|].
  cbn [ps_vals ps_schema]. split; [rewrite find_put, String.eqb_refl; reflexivity|]. split; [reflexivity|].
  intros m Hm. rewrite find_put. destruct (String.eqb_spec m n); [contradiction | reflexivity].
Qed.
Theorem C14_unknown_child_reported : forall F nm at_ pre c post s,
  setups F (get_type_of_node (Elem nm at_ (pre ++ c :: post))) = Some s ->
  get_type_of_node (Elem nm at_ (pre ++ c :: post)) <> "none"%string -> NoDup (declared s) ->
  (forall c', In c' pre -> node_name c' <> "text"%string ->
     exists ty d v, In (node_name c', ty, d) s /\ load_val F ty c' = POk v) ->
  node_name c <> "text"%string -> ~ In (node_name c) (declared s) ->
  get_object F (Elem nm at_ (pre ++ c :: post)) = PErr (UnknownParameterXML nm (node_name c)).
Proof. exact unknown_child. Qed.
Theorem C14_missing_parameters_reported : forall F nm at_ ch s,
  get_type_of_node (Elem nm at_ ch) <> "none"%string ->
  setups F (get_type_of_node (Elem nm at_ ch)) = Some s -> NoDup (declared s) -> ~ In "text"%string (declared s) ->
  (forall c, In c ch -> node_name c <> "text"%string ->
     exists ty d v, In (node_name c, ty, d) s /\ load_val F ty c = POk v) ->
  missing s ch <> [] ->
  get_object F (Elem nm at_ ch) = PErr (UndefinedParameters (get_type_of_node (Elem nm at_ ch)) (missing s ch)).
Proof. exact missing_reported. Qed.
(** Nothing loads with unknown or missing parameters. *)
Theorem C14_loaded_is_complete : forall F nm at_ ch t ps,
  get_type_of_node (Elem nm at_ ch) <> "none"%string ->
  get_object F (Elem nm at_ ch) = POk (Obj t ps) ->
  t = get_type_of_node (Elem nm at_ ch) /\
  exists s, setups F t = Some s /\ map fst ps = declared s /\
    forall c, In c ch -> node_name c <> "text"%string -> In (node_name c) (declared s).
Proof. exact loaded_complete. Qed.
(** An unregistered type never raises the documented error. *)
Theorem C14_unregistered_refuted : forall F nm at_ ch,
  get_type_of_node (Elem nm at_ ch) <> "none"%string ->
  setups F (get_type_of_node (Elem nm at_ ch)) = None ->
  get_object F (Elem nm at_ ch) = PErr BadFunctionCall /\
  get_object F (Elem nm at_ ch) <> PErr UnregisteredXML /\
  provide_parameters F (get_type_of_node (Elem nm at_ ch)) <> PErr UnregisteredError.
Proof.
  intros F nm at_ ch H1 H2. rewrite (unregistered_xml F nm at_ ch H1 H2). split; [reflexivity|]. split; [discriminate|].
  unfold provide_parameters. rewrite H2. discriminate.
Qed.
(** Text after a number is ignored rather than rejected. *)
Theorem C14_trailing_garbage_refuted : exists n, n = Elem "p" [] [Data (t_of "12abc")] /\ get_int n = POk 12%Z.
Proof. eexists. split; reflexivity. Qed.

(** The hypotheses are met: a nested object with one parameter of every kind. *)
Definition demo_schema : schema :=
  [("d"%string, PT_double, None); ("i"%string, PT_int, Some (VInt 3)); ("b"%string, PT_bool, None);
   ("vd"%string, PT_vec_double, None); ("vo"%string, PT_vec_object, None); ("s"%string, PT_string, None);
   ("sl"%string, PT_slip, None); ("z"%string, PT_size, None); ("vz"%string, PT_vec_size, None); ("tw"%string, PT_twin, None)].
Definition demo_factory : factory :=
  mkFactory (fun t => if String.eqb t "Demo" then Some demo_schema
                      else if String.eqb t "Leaf" then Some [("v"%string, PT_double, None)] else None)
            (fun _ _ => true).
Definition demo_object : object :=
  Obj "Demo" [("d"%string, VDouble (1/4)); ("i"%string, VInt (-7)); ("b"%string, VBool false);
   ("vd"%string, VVecDouble [0; 1/4]); ("vo"%string, VVecObject [Obj "Leaf" [("v"%string, VDouble 2)]]);
   ("s"%string, VString (t_of "abc d")); ("sl"%string, VSlip [([1; 1; 0]%Z, [1; -1; 1]%Z)]);
   ("z"%string, VSize 12); ("vz"%string, VVecSize [1; 2]%Z); ("tw"%string, VTwin [([1]%Z, [2]%Z, []%Z, [-4]%Z)])].
Example C12_demo_wf : wf_obj demo_factory demo_object.
Proof.
  apply (WF_obj demo_factory _ _ demo_schema); try reflexivity; try discriminate.
  - simpl. repeat constructor; simpl; intuition discriminate.
  - simpl. intuition discriminate.
  - intros k v H. simpl in H.
    repeat (destruct H as [H|H]; [inversion H; subst; clear H; eexists; eexists; split; [simpl; tauto|] | ]); try contradiction;
      constructor; try (unfold int32, uint64; lia); try reflexivity.
    + intros o [<-|[]]. apply (WF_obj demo_factory _ _ [("v"%string, PT_double, None)]); try reflexivity; try discriminate.
      * simpl. repeat constructor. simpl. tauto.
      * simpl. intuition discriminate.
      * intros k v [H|[]]. inversion H; subst. eexists; eexists. split; [left; reflexivity | constructor].
    + intros a b [H|[]]. inversion H; subst. split; repeat constructor; unfold int32; lia.
    + repeat constructor; unfold uint64; lia.
    + intros a b c d [H|[]]. inversion H; subst. repeat split; repeat constructor; unfold int32; lia.
Qed.
Example C14_demo_missing :
  get_object demo_factory (Elem "x" [("type"%string, "Leaf"%string)] []) = PErr (UndefinedParameters "Leaf" ["v"%string]).
Proof. reflexivity. Qed.
Example C14_demo_unknown :
  get_object demo_factory (Elem "x" [("type"%string, "Leaf"%string)] [Elem "w" [] []]) = PErr (UnknownParameterXML "x" "w").
Proof. reflexivity. Qed.

Print Assumptions C12_save_reload.
Print Assumptions C12_save_reload_same.
Print Assumptions C12_second_reload_same.
Print Assumptions C12_blank_string_refuted.
Print Assumptions C13_double_reload_refuted.
Print Assumptions C13_double_reload_close_partial.
Print Assumptions C13_short_double_exact_partial.
Print Assumptions C13_int_reload.
Print Assumptions C13_size_reload.
Print Assumptions C14_unknown_parameter.
Print Assumptions C14_known_parameter_assigned.
Print Assumptions C14_unknown_child_reported.
Print Assumptions C14_missing_parameters_reported.
Print Assumptions C14_loaded_is_complete.
Print Assumptions C14_unregistered_refuted.
Print Assumptions C14_trailing_garbage_refuted.
