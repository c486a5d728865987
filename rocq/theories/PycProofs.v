(** Proofs about building objects from Python. *)
From Coq Require Import String Ascii ZArith List Arith Lia Lra Permutation.
From Verif Require Import Base.
From Verif Require Import HistModel InterpModel TextModel ParseModel TextProofs ParseSpec ParseProofs PycModel PycSpec.
Import ListNotations.
Open Scope R_scope.

(** *** casts *)
Lemma to_double_ok v x : to_double v = Some x <-> number v x.
Proof.
  split.
  - destruct v as [y|z|[|]|s|l|o]; cbn; intros H; try discriminate; injection H as <-; constructor.
  - intros H. inversion H; reflexivity.
Qed.
Lemma to_int_ok v z : to_int v = Some z <-> int_in int32 v z.
Proof.
  unfold int_in. split.
  - destruct v as [y|y|[|]|s|l|o]; cbn [to_int]; intros H; try discriminate.
    + destruct (andb (Z.leb (- 2 ^ 31) y) (Z.ltb y (2 ^ 31))) eqn:E; [|discriminate]. injection H as <-. apply andb_prop in E. destruct E as [E1 E2].
      apply Z.leb_le in E1. apply Z.ltb_lt in E2. split; [constructor | split; assumption].
    + cbn in H. injection H as <-. split; [constructor | unfold int32; lia].
    + cbn in H. injection H as <-. split; [constructor | unfold int32; lia].
  - intros [H [A B]]. inversion H; subst; cbn [to_int]; try reflexivity.
    rewrite (proj2 (Z.leb_le _ _) A), (proj2 (Z.ltb_lt _ _) B). reflexivity.
Qed.
Lemma to_size_ok v z : to_size v = Some z <-> int_in uint64 v z.
Proof.
  unfold int_in. split.
  - destruct v as [y|y|[|]|s|l|o]; cbn [to_size]; intros H; try discriminate.
    + destruct (andb (Z.leb 0 y) (Z.ltb y (2 ^ 64))) eqn:E; [|discriminate]. injection H as <-. apply andb_prop in E. destruct E as [E1 E2].
      apply Z.leb_le in E1. apply Z.ltb_lt in E2. split; [constructor | split; assumption].
    + cbn in H. injection H as <-. split; [constructor | unfold uint64; lia].
    + cbn in H. injection H as <-. split; [constructor | unfold uint64; lia].
  - intros [H [A B]]. inversion H; subst; cbn [to_size]; try reflexivity.
    rewrite (proj2 (Z.leb_le _ _) A), (proj2 (Z.ltb_lt _ _) B). reflexivity.
Qed.
Lemma to_obj_ok v o : to_obj v = Some o <-> an_object v o.
Proof. unfold an_object. split; [destruct v; cbn; intros H; try discriminate; congruence | intros ->; reflexivity]. Qed.
Lemma all_of_ok {A} (f : pyv -> option A) (P : pyv -> A -> Prop) : (forall v a, f v = Some a <-> P v a) -> forall vs l, all_of f vs = Some l <-> Forall2 P vs l.
Proof.
  intros H. induction vs as [|v vs IH]; intros l; cbn [all_of].
  - split; [intros E; injection E as <-; constructor | intros E; inversion E; reflexivity].
  - split.
    + destruct (f v) as [a|] eqn:E1; [|discriminate]. destruct (all_of f vs) as [r|] eqn:E2; [|discriminate]. intros E; injection E as <-.
      constructor; [apply H; exact E1 | apply IH; reflexivity].
    + intros E. inversion E as [|x y xs ys H1 H2]; subst. apply H in H1. apply IH in H2. rewrite H1, H2. reflexivity.
Qed.
Lemma to_list_ok {A} (f : pyv -> option A) (P : pyv -> A -> Prop) : (forall v a, f v = Some a <-> P v a) -> forall v l, to_list f v = Some l <-> seq_of P v l.
Proof.
  intros H v l. unfold seq_of. split.
  - destruct v as [y|y|b|s|vs|o]; cbn; intros E; try discriminate. exists vs. split; [reflexivity | apply (all_of_ok f P H); exact E].
  - intros (vs & -> & E). cbn. apply (all_of_ok f P H). exact E.
Qed.
Lemma to_slip_ok v s : to_slip v = Some s <-> a_slip v s.
Proof.
  pose proof (to_list_ok to_int (int_in int32) to_int_ok) as L. unfold a_slip. split.
  - intros E. destruct v as [y|y|b|t|[|a [|b [|c vs]]]|o]; cbn [to_slip] in E; try discriminate.
    destruct (to_list to_int a) as [x|] eqn:E1; [|discriminate]. destruct (to_list to_int b) as [y|] eqn:E2; [|discriminate]. injection E as <-.
    exists a, b. cbn [fst snd]. split; [reflexivity | split; apply L; assumption].
  - intros (a & b & -> & A & B). cbn [to_slip]. apply L in A. apply L in B. rewrite A, B. destruct s; reflexivity.
Qed.
Lemma to_twin_ok v s : to_twin v = Some s <-> a_twin v s.
Proof.
  pose proof (to_list_ok to_int (int_in int32) to_int_ok) as L. unfold a_twin. split.
  - intros E. destruct v as [y|y|b|t|[|a [|b [|c [|d [|e vs]]]]]|o]; cbn [to_twin] in E; try discriminate.
    destruct (to_list to_int a) as [x1|] eqn:E1; [|discriminate]. destruct (to_list to_int b) as [x2|] eqn:E2; [|discriminate].
    destruct (to_list to_int c) as [x3|] eqn:E3; [|discriminate]. destruct (to_list to_int d) as [x4|] eqn:E4; [|discriminate]. injection E as <-.
    exists a, b, c, d. cbn [fst snd]. split; [reflexivity |]. split; [apply L; assumption|]. split; [apply L; assumption|]. split; apply L; assumption.
  - intros (a & b & c & d & -> & A & B & C & D). cbn [to_twin]. apply L in A. apply L in B. apply L in C. apply L in D. rewrite A, B, C, D. destruct s as [[[x1 x2] x3] x4]; reflexivity.
Qed.
Lemma number_not_object v x o : number v x -> an_object v o -> False.
Proof. intros H ->. inversion H. Qed.
Lemma omap_some {A B} (f : A -> B) x y : omap f x = Some y <-> exists a, x = Some a /\ y = f a.
Proof. destruct x as [a|]; cbn; split; try (intros E; injection E as <-; exists a; auto); try discriminate; intros (b & E & ->); congruence. Qed.
Lemma number_det v x y : number v x -> number v y -> x = y.
Proof. intros H K. apply to_double_ok in H, K. congruence. Qed.
Lemma to_bool_ok v b : to_bool v = Some b <-> (v = PyBool b \/ (exists x, number v x /\ x <> 0 /\ b = true) \/ (number v 0 /\ b = false)).
Proof.
  split.
  - destruct v as [y|z|c|s|l|o]; cbn; intros H; try discriminate.
    + destruct (Req_EM_T y 0) as [->|E]; injection H as <-; [right; right; split; [constructor|reflexivity] | right; left; exists y; repeat split; [constructor | exact E]].
    + destruct (Z.eqb_spec z 0) as [->|E]; injection H as <-.
      * right; right. split; [change 0 with (IZR 0); constructor | reflexivity].
      * right; left. exists (IZR z). split; [constructor |]. split; [apply not_0_IZR; exact E | reflexivity].
    + injection H as <-. left; reflexivity.
  - intros [->|[(x & H & N & ->)|(H & ->)]]; [reflexivity | |].
    + inversion H; subst; cbn.
      * destruct (Req_EM_T x 0); [contradiction | reflexivity].
      * destruct (Z.eqb_spec z 0) as [->|]; [exfalso; apply N; reflexivity | reflexivity].
      * reflexivity.
      * exfalso. apply N. reflexivity.
    + apply to_double_ok in H. destruct v as [y|z|[|]|s|l|o]; cbn in H; try discriminate; apply (f_equal (fun z => match z with Some w => w | None => 0 end)) in H; cbn.
      * destruct (Req_EM_T y 0); [reflexivity | contradiction].
      * apply eq_IZR in H. subst. reflexivity.
      * lra.
      * reflexivity.
Qed.
Lemma cast_means ty v x : cast ty v = Some x <-> means ty v x.
Proof.
  split.
  - destruct ty; cbn [cast]; intros H; try (apply omap_some in H; destruct H as (a & H & ->)).
    + constructor. apply to_double_ok. exact H.
    + constructor. apply to_int_ok. exact H.
    + apply to_bool_ok in H. destruct H as [->|[(y & H & N & ->)|(H & ->)]]; [constructor | eapply me_yes; eassumption | apply me_no; exact H].
    + constructor. apply (to_list_ok _ _ to_double_ok). exact H.
    + destruct (to_double v) as [y|] eqn:E.
      * injection H as <-. apply (me_const v y). apply to_double_ok. exact E.
      * apply omap_some in H. destruct H as (a & H & ->). apply me_object. apply to_obj_ok. exact H.
    + destruct (to_list to_double v) as [l|] eqn:E.
      * injection H as <-. apply (me_consts v l). apply (to_list_ok _ _ to_double_ok). exact E.
      * apply omap_some in H. destruct H as (a & H & ->). apply me_objects. apply (to_list_ok _ _ to_obj_ok). exact H.
    + destruct v; cbn in H; try discriminate. injection H as <-. constructor.
    + constructor. apply (to_list_ok _ _ to_slip_ok). exact H.
    + constructor. apply to_size_ok. exact H.
    + constructor. apply (to_list_ok _ _ to_size_ok). exact H.
    + constructor. apply (to_list_ok _ _ to_twin_ok). exact H.
  - intros H. inversion H; subst; cbn [cast].
    + apply to_double_ok in H0. rewrite H0. reflexivity.
    + apply to_int_ok in H0. rewrite H0. reflexivity.
    + apply to_size_ok in H0. rewrite H0. reflexivity.
    + reflexivity.
    + rewrite (proj2 (to_bool_ok v true)); [reflexivity |]. right; left. eauto.
    + rewrite (proj2 (to_bool_ok v false)); [reflexivity |]. right; right. auto.
    + reflexivity.
    + rewrite (proj2 (to_list_ok _ _ to_double_ok v l) H0). reflexivity.
    + rewrite (proj2 (to_list_ok _ _ to_size_ok v l) H0). reflexivity.
    + rewrite (proj2 (to_list_ok _ _ to_slip_ok v l) H0). reflexivity.
    + rewrite (proj2 (to_list_ok _ _ to_twin_ok v l) H0). reflexivity.
    + apply to_double_ok in H0. rewrite H0. reflexivity.
    + destruct (to_double v) as [y|] eqn:E; [exfalso; apply to_double_ok in E; exact (number_not_object _ _ _ E H0) |]. apply to_obj_ok in H0. rewrite H0. reflexivity.
    + rewrite (proj2 (to_list_ok _ _ to_double_ok v l) H0). reflexivity.
    + destruct (to_list to_double v) as [l'|] eqn:E.
      * apply (to_list_ok _ _ to_double_ok) in E. destruct E as (vs & -> & E). destruct H0 as (vs' & E' & H0). assert (vs' = vs) by congruence. subst vs'.
        inversion E as [|a b c d P Q]; subst; inversion H0 as [|a' b' c' d' P' Q']; subst; [reflexivity |]. exfalso. exact (number_not_object _ _ _ P P').
      * rewrite (proj2 (to_list_ok _ _ to_obj_ok v l) H0). reflexivity.
Qed.
Lemma means_det ty v x y : means ty v x -> means ty v y -> x = y.
Proof. intros H K. apply cast_means in H, K. congruence. Qed.

(** *** assigning *)
Lemma find_none {A} (l : list (string * A)) n : find n l = None <-> ~ In n (map fst l).
Proof.
  induction l as [|[k v] l IH]; cbn [find map fst In]; [tauto |].
  destruct (String.eqb_spec n k) as [->|E]; [split; [discriminate | tauto] |]. rewrite IH. split; [intros H [K|K]; [congruence | tauto] | tauto].
Qed.
Lemma find_some {A} (l : list (string * A)) n v : NoDup (map fst l) -> (find n l = Some v <-> In (n, v) l).
Proof.
  induction l as [|[k w] l IH]; intros N; cbn [find In]; [split; [discriminate | tauto] |].
  cbn [map fst] in N. apply NoDup_cons_iff in N. destruct N as [N1 N2]. destruct (String.eqb_spec n k) as [->|E].
  - split; [intros H; injection H as <-; left; reflexivity |]. intros [H|H]; [congruence |]. exfalso. apply N1. change k with (fst (k, v)). apply in_map. exact H.
  - rewrite (IH N2). split; [tauto | intros [H|H]; [congruence | exact H]].
Qed.
Lemma schema_find (s : schema) n ty : NoDup (declared s) -> (find n (map fst s) = Some ty <-> exists d, In (n, ty, d) s).
Proof.
  intros N. assert (M : map fst (map fst s) = declared s) by (rewrite map_map; reflexivity). rewrite find_some by (rewrite M; exact N). split.
  - intros H. apply in_map_iff in H. destruct H as ([[a b] d] & E & H). cbn in E. injection E as <- <-. eauto.
  - intros (d & H). change (n, ty) with (fst (n, ty, d)). apply in_map. exact H.
Qed.
Lemma is_parameter_schema t (s : schema) vals n : is_parameter n (mkPset t (map fst s) vals) = true <-> In n (declared s).
Proof.
  unfold is_parameter. cbn [ps_schema]. rewrite mem_In. unfold names. rewrite map_map. reflexivity.
Qed.
(** assigning a list of arguments: succeeds exactly when all are declared and can be cast; the last wins *)
Lemma assign_all_ok t (s : schema) : NoDup (declared s) -> forall l vals p', assign_all l (mkPset t (map fst s) vals) = POk p' <->
  exists vals', p' = mkPset t (map fst s) vals' /\ (forall n v, In (n, v) l -> exists ty d x, In (n, ty, d) s /\ means ty v x) /\ assign_all l (mkPset t (map fst s) vals) = POk p'.
Proof.
  intros N. induction l as [|[n v] l IH]; intros vals p'.
  - cbn [assign_all]. split; [intros E; injection E as <-; exists vals; split; [reflexivity | split; [intros n v [] | reflexivity]] | intros (v' & E & _ & H); exact H].
  - split; [| intros (v' & E & _ & H); exact H]. intros H. assert (H0 := H). cbn [assign_all] in H. unfold assign_python, get_object_type in H. cbn [ps_schema] in H.
    destruct (find n (map fst s)) as [ty|] eqn:F.
    + apply schema_find in F; [|exact N]. destruct F as (d & F). destruct (cast ty v) as [x|] eqn:C; [|discriminate].
      unfold assign_parameter in H. rewrite (proj2 (is_parameter_schema t s vals n)) in H by (unfold declared; change n with (fst (fst (n, ty, d))); apply (in_map (fun e => fst (fst e))); exact F).
      cbn [pbind ps_type ps_schema ps_vals] in H. apply IH in H. destruct H as (v' & E & A & _). exists v'. split; [exact E |]. split; [| exact H0].
      intros m w [K|K]; [|apply A; exact K]. assert (m = n) by congruence. assert (w = v) by congruence. subst. exists ty, d, x. split; [exact F | apply cast_means; exact C].
    + destruct (cast PT_double v) as [x|]; [|discriminate]. unfold assign_parameter in H.
      destruct (is_parameter n (mkPset t (map fst s) vals)) eqn:I; [|discriminate]. apply is_parameter_schema in I. apply find_none in F. exfalso. apply F. rewrite map_map. exact I.
Qed.
Lemma assign_all_run t (s : schema) : NoDup (declared s) -> forall l vals, NoDup (map fst l) ->
  (forall n v, In (n, v) l -> exists ty d x, In (n, ty, d) s /\ means ty v x) ->
  exists vals', assign_all l (mkPset t (map fst s) vals) = POk (mkPset t (map fst s) vals') /\
    (forall n v ty d x, In (n, v) l -> In (n, ty, d) s -> means ty v x -> find n vals' = Some x) /\ (forall n, ~ In n (map fst l) -> find n vals' = find n vals).
Proof.
  intros N. induction l as [|[n v] l IH]; intros vals Nl H.
  - exists vals. split; [reflexivity | split; [intros n v ty d x [] | reflexivity]].
  - cbn [map fst] in Nl. apply NoDup_cons_iff in Nl. destruct Nl as [N1 N2].
    destruct (H n v (or_introl eq_refl)) as (ty & d & x & I & M). pose proof (proj2 (cast_means _ _ _) M) as C.
    assert (F : find n (map fst s) = Some ty) by (apply schema_find; [exact N | eauto]).
    destruct (IH (put n x vals) N2 (fun n v K => H n v (or_intror K))) as (v' & E & A & B). exists v'.
    assert (In n (declared s)) as Hn by (unfold declared; change n with (fst (fst (n, ty, d))); apply (in_map (fun e => fst (fst e))); exact I).
    split; [| split].
    + cbn [assign_all]. unfold assign_python, get_object_type. cbn [ps_schema]. rewrite F, C. unfold assign_parameter.
      rewrite (proj2 (is_parameter_schema t s vals n) Hn). cbn [pbind ps_type ps_schema ps_vals]. exact E.
    + intros m w ty' d' x' [K|K] I' M'.
      * assert (m = n) by congruence. assert (w = v) by congruence. subst. assert (find n (map fst s) = Some ty') by (apply schema_find; [exact N | eauto]).
        assert (ty' = ty) by congruence. subst. rewrite (means_det _ _ _ _ M' M). rewrite B by exact N1. rewrite find_put, String.eqb_refl. reflexivity.
      * exact (A m w ty' d' x' K I' M').
    + intros m K. cbn [map fst In] in K. rewrite B by tauto. rewrite find_put. destruct (String.eqb_spec m n); [exfalso; apply K; left; congruence | reflexivity].
Qed.
Lemma default_find (s : schema) n ty d : NoDup (declared s) -> In (n, ty, d) s ->
  find n (flat_map (fun e => match snd e with Some v => [(fst (fst e), v)] | None => [] end) s) = d.
Proof.
  assert (Z0 : forall (s : schema) n, ~ In n (declared s) ->
    find n (flat_map (fun e => match snd e with Some v => [(fst (fst e), v)] | None => [] end) s) = None).
  { clear. induction s as [|[[a b] [v|]] r IH]; intros n H; [reflexivity| |]; simpl in *.
    - destruct (String.eqb_spec n a); [subst; tauto | apply IH; tauto].
    - apply IH. tauto. }
  induction s as [|[[a b] o] r IH]; intros N H; [destruct H |].
  change (declared ((a, b, o) :: r)) with (a :: declared r) in N. apply NoDup_cons_iff in N. destruct N as [N1 N2]. destruct H as [H|H].
  - assert (a = n) by congruence. assert (o = d) by congruence. subst. cbn [flat_map snd fst]. destruct d as [v|]; cbn [app find]; [rewrite String.eqb_refl; reflexivity | apply Z0; exact N1].
  - assert (a <> n) as E by (intros ->; apply N1; unfold declared; change n with (fst (fst (n, ty, d))); apply (in_map (fun e => fst (fst e))); exact H).
    cbn [flat_map snd fst]. destruct o as [v|]; cbn [app find]; [destruct (String.eqb_spec n a); [congruence |] |]; apply IH; assumption.
Qed.
(** the object made from a parameter set *)
Lemma ordered_names t (s : schema) vals : (forall n, In n (declared s) -> find n vals <> None) -> map fst (ordered (mkPset t (map fst s) vals)) = declared s.
Proof.
  intros H. unfold ordered. cbn [ps_schema ps_vals]. replace (names (map fst s)) with (declared s) by (unfold names; rewrite map_map; reflexivity). apply flat_find_names. exact H.
Qed.
Lemma ordered_in t (s : schema) vals n x : In (n, x) (ordered (mkPset t (map fst s) vals)) -> In n (declared s) /\ find n vals = Some x.
Proof.
  unfold ordered. cbn [ps_schema ps_vals]. replace (names (map fst s)) with (declared s) by (unfold names; rewrite map_map; reflexivity).
  intros H. apply in_flat_map in H. destruct H as (m & Hm & H). destruct (find m vals) as [v|] eqn:E; [|destruct H]. destruct H as [H|[]]. assert (m = n) by congruence. assert (v = x) by congruence. subst. auto.
Qed.
Lemma full_iff t (s : schema) vals : fully_assigned (mkPset t (map fst s) vals) = true <-> forall n, In n (declared s) -> find n vals <> None.
Proof.
  unfold fully_assigned. cbn [ps_schema ps_vals]. replace (names (map fst s)) with (declared s) by (unfold names; rewrite map_map; reflexivity).
  rewrite forallb_forall. split; intros H n Hn; specialize (H n Hn); destruct (find n vals); congruence.
Qed.
Lemma assoc_ext (a b : list (string * pval)) : map fst a = map fst b -> NoDup (map fst a) -> (forall n x, In (n, x) a -> forall y, In (n, y) b -> x = y) -> a = b.
Proof.
  revert b. induction a as [|[n x] a IH]; intros [|[m y] b] E N H; try discriminate; [reflexivity |].
  cbn [map fst] in E, N. assert (m = n) by congruence. subst m. apply NoDup_cons_iff in N. destruct N as [N1 N2].
  f_equal; [f_equal; apply (H n x (or_introl eq_refl) y (or_introl eq_refl)) |]. apply IH; [congruence | exact N2 |].
  intros k u Hu w Hw. exact (H k u (or_intror Hu) w (or_intror Hw)).
Qed.
Lemma combine_fst {A B} (a : list A) (b : list B) : length a = length b -> map fst (combine a b) = a.
Proof. revert b. induction a as [|x a IH]; intros [|y b] E; try discriminate; [reflexivity |]. cbn. f_equal. apply IH. cbn in E. lia. Qed.

(** *** the constructor *)
Lemma construct F t s req args kw o : setups F t = Some s -> NoDup (declared s) -> NoDup req -> NoDup (map fst kw) ->
  (create_python F t req args kw = POk o <-> length args = length req /\ described F t s (combine req args) kw o).
Proof.
  intros Hs N Nr Nk. unfold create_python, provide_parameters. rewrite Hs. cbn [pbind]. unfold fresh.
  set (v0 := flat_map _ s). destruct (Nat.eqb_spec (length args) (length req)) as [L|L]; cbn [negb]; [| split; [discriminate | intros [K _]; contradiction]].
  assert (Np : NoDup (map fst (combine req args))) by (rewrite combine_fst by lia; exact Nr).
  assert (Gen : (forall n v, In (n, v) (combine req args ++ kw) -> exists ty d x, In (n, ty, d) s /\ means ty v x) ->
    exists v2, pbind (assign_all (combine req args) (mkPset t (map fst s) v0)) (fun p => pbind (assign_all kw p) (create F)) = create F (mkPset t (map fst s) v2) /\
      forall n ty d, In (n, ty, d) s -> forall x, find n v2 = Some x <-> ((exists v, arg_for (combine req args) kw n v /\ means ty v x) \/ (no_arg (combine req args) kw n /\ d = Some x))).
  { intros H. destruct (assign_all_run t s N (combine req args) v0 Np (fun n v K => H n v (in_or_app _ _ _ (or_introl K)))) as (v1 & E1 & A1 & B1).
    destruct (assign_all_run t s N kw v1 Nk (fun n v K => H n v (in_or_app _ _ _ (or_intror K)))) as (v2 & E2 & A2 & B2).
    exists v2. rewrite E1. cbn [pbind]. rewrite E2. cbn [pbind]. split; [reflexivity |]. intros n ty d I x.
    destruct (in_dec string_dec n (map fst kw)) as [K|K].
    - apply in_map_iff in K. destruct K as ([m v] & E & K). cbn in E. subst m.
      destruct (H n v (in_or_app _ _ _ (or_intror K))) as (ty' & d' & x' & I' & M).
      assert (ty' = ty). { assert (F1 : find n (map fst s) = Some ty') by (apply schema_find; eauto). assert (F2 : find n (map fst s) = Some ty) by (apply schema_find; eauto). congruence. } subst ty'.
      rewrite (A2 n v ty d' x' K I' M). split.
      + intros E. injection E as <-. left. exists v. split; [left; exact K | exact M].
      + intros [(w & [Hw|[Hw _]] & Mw)|((Hw & _) & _)].
        * assert (w = v). { apply (find_some kw n w Nk) in Hw. apply (find_some kw n v Nk) in K. congruence. } subst. rewrite (means_det _ _ _ _ M Mw). reflexivity.
        * exfalso. apply Hw. change n with (fst (n, v)). apply in_map. exact K.
        * exfalso. apply Hw. change n with (fst (n, v)). apply in_map. exact K.
    - rewrite (B2 n K). destruct (in_dec string_dec n (map fst (combine req args))) as [P|P].
      + apply in_map_iff in P. destruct P as ([m v] & E & P). cbn in E. subst m.
        destruct (H n v (in_or_app _ _ _ (or_introl P))) as (ty' & d' & x' & I' & M).
        assert (ty' = ty). { assert (F1 : find n (map fst s) = Some ty') by (apply schema_find; eauto). assert (F2 : find n (map fst s) = Some ty) by (apply schema_find; eauto). congruence. } subst ty'.
        rewrite (A1 n v ty d' x' P I' M). split.
        * intros E. injection E as <-. left. exists v. split; [right; auto | exact M].
        * intros [(w & [Hw|[_ Hw]] & Mw)|((_ & Hw) & _)].
          -- exfalso. apply K. change n with (fst (n, w)). apply in_map. exact Hw.
          -- assert (w = v). { apply (find_some _ n w Np) in Hw. apply (find_some _ n v Np) in P. congruence. } subst. rewrite (means_det _ _ _ _ M Mw). reflexivity.
          -- exfalso. apply Hw. change n with (fst (n, v)). apply in_map. exact P.
      + rewrite (B1 n P). unfold v0. rewrite (default_find s n ty d N I). split.
        * intros ->. right. split; [split; assumption | reflexivity].
        * intros [(w & [Hw|[_ Hw]] & _)|(_ & E)]; [| | exact E].
          -- exfalso. apply K. change n with (fst (n, w)). apply in_map. exact Hw.
          -- exfalso. apply P. change n with (fst (n, w)). apply in_map. exact Hw. }
  split.
  - intros H. split; [exact L |].
    assert (Hd : forall n v, In (n, v) (combine req args ++ kw) -> exists ty d x, In (n, ty, d) s /\ means ty v x).
    { destruct (assign_all (combine req args) (mkPset t (map fst s) v0)) as [p1|e] eqn:E1; [|discriminate]. cbn [pbind] in H.
      apply (assign_all_ok t s N) in E1. destruct E1 as (v1 & -> & D1 & _).
      destruct (assign_all kw (mkPset t (map fst s) v1)) as [p2|e] eqn:E2; [|discriminate].
      apply (assign_all_ok t s N) in E2. destruct E2 as (v2 & -> & D2 & _).
      intros n v K. apply in_app_or in K. destruct K as [K|K]; [apply D1; exact K | apply D2; exact K]. }
    destruct (Gen Hd) as (v2 & E & Fv). rewrite E in H. clear Gen E. split; [exact Hd |].
    unfold create in H. destruct (fully_assigned _) eqn:Fa; [|discriminate]. cbn [ps_type] in H. rewrite Hs in H.
    destruct (accepts F t _) eqn:Ac; [|discriminate]. exists (ordered (mkPset t (map fst s) v2)). split; [congruence |].
    split; [apply ordered_names; apply (proj1 (full_iff t s v2)); exact Fa |]. split; [exact Ac |].
    intros n x I. apply ordered_in in I. destruct I as [I Fx]. unfold declared in I. apply in_map_iff in I. destruct I as ([[m ty] d] & Em & I). cbn in Em. subst m.
    exists ty, d. split; [exact I |]. apply (Fv n ty d I x). exact Fx.
  - intros (_ & Hd & ps & -> & Hn & Ac & Hp). destruct (Gen Hd) as (v2 & E & Fv). rewrite E.
    assert (Full : forall n, In n (declared s) -> find n v2 <> None).
    { intros n Hi. rewrite <- Hn in Hi. apply in_map_iff in Hi. destruct Hi as ([m x] & Em & I). cbn in Em. subst m.
      destruct (Hp n x I) as (ty & d & Is & K). rewrite (proj2 (Fv n ty d Is x) K). discriminate. }
    assert (ordered (mkPset t (map fst s) v2) = ps) as Eo.
    { apply assoc_ext.
      - rewrite Hn. apply ordered_names. exact Full.
      - rewrite ordered_names by exact Full. exact N.
      - intros n x I y J. apply ordered_in in I. destruct I as [_ I]. destruct (Hp n y J) as (ty & d & Is & K). rewrite (proj2 (Fv n ty d Is y) K) in I. congruence. }
    unfold create. rewrite (proj2 (full_iff t s v2) Full). cbn [ps_type]. rewrite Hs, Eo, Ac. reflexivity.
Qed.
Lemma keyword_order F t s req args kw kw' o : setups F t = Some s -> NoDup (declared s) -> NoDup req -> NoDup (map fst kw) -> Permutation kw kw' ->
  create_python F t req args kw = POk o -> create_python F t req args kw' = POk o.
Proof.
  intros Hs N Nr Nk P H. apply (construct F t s req args kw o Hs N Nr Nk) in H. destruct H as [L (D & ps & E & Hn & Ac & Hp)].
  assert (Nk' : NoDup (map fst kw')) by (apply (Permutation_NoDup (Permutation_map fst P)); exact Nk).
  apply (construct F t s req args kw' o Hs N Nr Nk'). split; [exact L |].
  assert (I : forall x, In x kw' <-> In x kw) by (intros x; split; apply Permutation_in; [symmetry|]; exact P).
  assert (J : forall x, In x (map fst kw') <-> In x (map fst kw)) by (intros x; split; apply Permutation_in; apply Permutation_map; [symmetry|]; exact P).
  split.
  - intros n v K. apply D. apply in_app_or in K. apply in_or_app. rewrite I in K. exact K.
  - exists ps. split; [exact E |]. split; [exact Hn |]. split; [exact Ac |]. intros n x K. destruct (Hp n x K) as (ty & d & Is & [(v & A & M)|(A & Ed)]); exists ty, d; (split; [exact Is |]).
    + left. exists v. split; [| exact M]. unfold arg_for in *. rewrite I, J. exact A.
    + right. split; [| exact Ed]. unfold no_arg in *. rewrite J. exact A.
Qed.
(** what is missing is reported *)
Lemma construct_missing F t s req args kw : setups F t = Some s -> NoDup (declared s) -> NoDup req -> NoDup (map fst kw) -> length args = length req ->
  (forall n v, In (n, v) (combine req args ++ kw) -> exists ty d x, In (n, ty, d) s /\ means ty v x) ->
  let miss := map (fun e => fst (fst e)) (filter (fun e => match snd e with None => negb (mem (fst (fst e)) (req ++ map fst kw)) | Some _ => false end) s) in
  miss <> [] -> create_python F t req args kw = PErr (UndefinedParameters t miss).
Proof.
  intros Hs N Nr Nk L H miss Hm. unfold create_python, provide_parameters. rewrite Hs. cbn [pbind]. rewrite (proj2 (Nat.eqb_eq _ _) L). cbn [negb]. unfold fresh. set (v0 := flat_map _ s).
  assert (Np : NoDup (map fst (combine req args))) by (rewrite combine_fst by lia; exact Nr).
  destruct (assign_all_run t s N (combine req args) v0 Np (fun n v K => H n v (in_or_app _ _ _ (or_introl K)))) as (v1 & E1 & A1 & B1).
  destruct (assign_all_run t s N kw v1 Nk (fun n v K => H n v (in_or_app _ _ _ (or_intror K)))) as (v2 & E2 & A2 & B2).
  rewrite E1. cbn [pbind]. rewrite E2. cbn [pbind].
  assert (U : forall n ty d, In (n, ty, d) s -> (find n v2 = None <-> d = None /\ ~ In n (req ++ map fst kw))).
  { intros n ty d I. destruct (in_dec string_dec n (map fst kw)) as [K|K].
    - assert (K0 := K). apply in_map_iff in K. destruct K as ([m v] & E & K). cbn in E. subst m. destruct (H n v (in_or_app _ _ _ (or_intror K))) as (ty' & d' & x' & I' & M).
      rewrite (A2 n v ty' d' x' K I' M). split; [discriminate |]. intros [_ Q]. exfalso. apply Q. apply in_or_app. right. exact K0.
    - rewrite (B2 n K). destruct (in_dec string_dec n (map fst (combine req args))) as [P|P].
      + assert (P0 := P). rewrite combine_fst in P0 by lia. apply in_map_iff in P. destruct P as ([m v] & E & P). cbn in E. subst m.
        destruct (H n v (in_or_app _ _ _ (or_introl P))) as (ty' & d' & x' & I' & M). rewrite (A1 n v ty' d' x' P I' M). split; [discriminate |].
        intros [_ Q]. exfalso. apply Q. apply in_or_app. left. exact P0.
      + rewrite (B1 n P). unfold v0. rewrite (default_find s n ty d N I). rewrite combine_fst in P by lia. split; [| tauto].
        intros ->. split; [reflexivity |]. intros Q. apply in_app_or in Q. tauto. }
  assert (Eu : unassigned_parameters (mkPset t (map fst s) v2) = miss).
  { unfold unassigned_parameters, miss. cbn [ps_schema ps_vals]. replace (names (map fst s)) with (declared s) by (unfold names; rewrite map_map; reflexivity).
    clear - U. unfold declared. induction s as [|[[a b] o] r IH]; [reflexivity |]. cbn [map filter fst snd].
    assert (IH' := IH (fun n ty d I => U n ty d (or_intror I))). specialize (U a b o (or_introl eq_refl)).
    destruct (find a v2) as [x|] eqn:Ef.
    - destruct o as [y|]; [exact IH' |]. destruct (mem a (req ++ map fst kw)) eqn:Em; cbn [negb map fst]; [exact IH' |].
      exfalso. assert (Some x = None) as X; [|discriminate X]. apply U. split; [reflexivity |]. intros Q. apply mem_In in Q. congruence.
    - destruct (proj1 U eq_refl) as [-> Q]. destruct (mem a (req ++ map fst kw)) eqn:Em; [apply mem_In in Em; contradiction |]. cbn [negb map fst]. f_equal. exact IH'. }
  unfold create. rewrite Eu. cbn [ps_type].
  destruct (fully_assigned (mkPset t (map fst s) v2)) eqn:Fa; [|reflexivity]. exfalso. apply Hm. rewrite <- Eu. unfold unassigned_parameters. cbn [ps_schema ps_vals].
  rewrite full_iff in Fa. replace (names (map fst s)) with (declared s) by (unfold names; rewrite map_map; reflexivity).
  clear - Fa. induction (declared s) as [|n r IH]; [reflexivity |]. cbn [filter]. destruct (find n v2) eqn:E; [| exfalso; exact (Fa n (or_introl eq_refl) E)]. apply IH. intros m K. apply Fa. right. exact K.
Qed.
(** an undeclared keyword never gives an object *)
Lemma unknown_keyword F t s req args kw n v o : setups F t = Some s -> NoDup (declared s) -> In (n, v) kw -> ~ In n (declared s) -> create_python F t req args kw <> POk o.
Proof.
  intros Hs N K U H. unfold create_python, provide_parameters in H. rewrite Hs in H. cbn [pbind] in H. destruct (negb _); [discriminate |]. unfold fresh in H.
  destruct (assign_all (combine req args) _) as [p1|e] eqn:E1 in H; [|discriminate]. cbn [pbind] in H. apply (assign_all_ok t s N) in E1. destruct E1 as (v1 & -> & _ & _).
  destruct (assign_all kw _) as [p2|e] eqn:E2 in H; [|discriminate]. apply (assign_all_ok t s N) in E2. destruct E2 as (v2 & _ & D2 & _).
  destruct (D2 n v K) as (ty & d & x & I & _). apply U. unfold declared. change n with (fst (fst (n, ty, d))). apply (in_map (fun e => fst (fst e))). exact I.
Qed.
Lemma unknown_first F t s args n v kw : setups F t = Some s -> args = [] -> ~ In n (declared s) ->
  create_python F t [] args ((n, v) :: kw) = match to_double v with Some _ => PErr (UnknownParameter n) | None => PErr StdException end.
Proof.
  intros Hs -> U. unfold create_python, provide_parameters. rewrite Hs. cbn [pbind length Nat.eqb negb combine assign_all]. unfold assign_python, get_object_type, fresh. cbn [ps_schema].
  assert (F0 : find n (map fst s) = None) by (apply find_none; rewrite map_map; exact U). rewrite F0. cbn [cast]. destruct (to_double v) as [x|]; cbn [omap]; [|reflexivity].
  unfold assign_parameter. destruct (is_parameter n _) eqn:I; [apply (is_parameter_schema t s) in I; contradiction | reflexivity].
Qed.

(** *** pickling *)
Lemma constant_wf F x : sound_factory F -> wf_obj F (constant x).
Proof.
  intros (H1 & (d & H2) & H3 & H4). unfold constant. assert (T : "ConstantInterpolate"%string <> "none"%string) by discriminate. apply (WF_obj F _ _ _ T H2); try reflexivity.
  - constructor; [intros [] | constructor].
  - intros [E|[]]. discriminate E.
  - intros k v [E|[]]. assert (k = "v"%string) by congruence. assert (v = VDouble x) by congruence. subst. exists PT_double, d. split; [left; reflexivity | constructor].
  - apply H3.
Qed.
Lemma int_list_range v l : seq_of (int_in int32) v l -> List.Forall int32 l.
Proof. intros (vs & _ & H). induction H as [|a b c d [_ P] Q IH]; constructor; assumption. Qed.
Lemma size_list_range v l : seq_of (int_in uint64) v l -> List.Forall uint64 l.
Proof. intros (vs & _ & H). induction H as [|a b c d [_ P] Q IH]; constructor; assumption. Qed.
Lemma means_wf F ty v x : sound_factory F -> writable F v -> means ty v x -> wf_val F ty x.
Proof.
  intros S W M. inversion M; subst.
  - constructor.
  - constructor. exact (proj2 H).
  - constructor. exact (proj2 H).
  - constructor.
  - constructor.
  - constructor.
  - constructor. inversion W; subst; assumption.
  - constructor.
  - constructor. exact (size_list_range v l H).
  - constructor. destruct H as (vs & _ & H). intros a b I.
    assert (exists w, a_slip w (a, b)) as (w & (p & q & _ & P & Q)). { clear - H I. induction H as [|w e c d P Q IH]; [destruct I |]. destruct I as [->|I]; [eauto | auto]. }
    split; eapply int_list_range; eassumption.
  - constructor. destruct H as (vs & _ & H). intros a b c d I.
    assert (exists w, a_twin w (a, b, c, d)) as (w & (p & q & r & s & _ & P & Q & U & V)). { clear - H I. induction H as [|w e f g P Q IH]; [destruct I |]. destruct I as [->|I]; [eauto | auto]. }
    split; [eapply int_list_range; eassumption |]. split; [eapply int_list_range; eassumption |]. split; eapply int_list_range; eassumption.
  - constructor. apply constant_wf. exact S.
  - constructor. inversion H; subst. inversion W; subst; assumption.
  - constructor. intros o I. apply in_map_iff in I. destruct I as (y & <- & _). apply constant_wf. exact S.
  - constructor. intros o I. destruct H as (vs & -> & H). assert (Wl : forall v, In v vs -> writable F v) by (inversion W; assumption).
    clear - H I Wl. induction H as [|w e c d P Q IH]; [destruct I |].
    destruct I as [->|I]; [| apply IH; [exact I | intros u K; apply Wl; right; exact K]]. unfold an_object in P. subst. pose proof (Wl (PyObj o) (or_introl eq_refl)) as K. inversion K; subst; assumption.
Qed.
Lemma built_wf F t s req args kw o : sound_factory F -> setups F t = Some s -> NoDup req -> NoDup (map fst kw) ->
  (forall v, In v (args ++ map snd kw) -> writable F v) -> create_python F t req args kw = POk o -> wf_obj F o.
Proof.
  intros S Hs Nr Nk W H. assert (S0 := S). destruct S as (S1 & _ & _ & S4). destruct (S1 t s Hs) as (T1 & T2 & T3 & T4).
  apply (construct F t s req args kw o Hs T2 Nr Nk) in H. destruct H as [L (D & ps & -> & Hn & Ac & Hp)].
  apply (WF_obj F t ps s T1 Hs Hn); [rewrite Hn; exact T2 | rewrite Hn; exact T3 | | apply S4; exact Ac].
  intros k v I. destruct (Hp k v I) as (ty & d & Is & [(w & A & M)|(_ & ->)]); [| exists ty, (Some v); split; [exact Is | apply (T4 k); exact Is]].
  exists ty, d. split; [exact Is |]. apply (means_wf F ty w v S0); [| exact M]. apply W. apply in_or_app. destruct A as [A|[_ A]].
  - right. change w with (snd (k, w)). apply in_map. exact A.
  - left. apply in_combine_r in A. exact A.
Qed.
Lemma pickled F t s req args kw o : sound_factory F -> setups F t = Some s -> NoDup req -> NoDup (map fst kw) ->
  (forall v, In v (args ++ map snd kw) -> writable F v) -> create_python F t req args kw = POk o -> setstate F (getstate o) = POk (round_obj o).
Proof. intros S Hs Nr Nk W H. unfold setstate, getstate. apply roundtrip. exact (built_wf F t s req args kw o S Hs Nr Nk W H). Qed.
