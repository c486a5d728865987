From Coq Require Import List Arith Lia Bool.
From Verif Require Import EmModel EmSpec.
Import ListNotations.

(** ** Heaps that programs make *)
Record wf (h : heap) : Prop := {
  wf_lower : forall a o c, h a = Some o -> In c (children (o_kind o)) -> c < a /\ exists oc, h c = Some oc;
  wf_class : forall a o, h a = Some o -> class_ok h (o_kind o) = true }.
Lemma assign_spec : forall e a h b, assign e a h b = if Nat.eqb b a then option_map (fun o => mkObj (o_kind o) e) (h a) else h b.
Proof. intros e a h b. unfold assign, put. destruct (Nat.eqb_spec b a) as [->|N]; destruct (h a) as [o|] eqn:E; try reflexivity; [now rewrite Nat.eqb_refl|exact E|]. apply Nat.eqb_neq in N. now rewrite N. Qed.
(** kinds alone *)
Definition skel (h : heap) (a : addr) : option kind := option_map o_kind (h a).
Definition same_kinds (h h' : heap) : Prop := forall a, skel h' a = skel h a.
Lemma same_refl : forall h, same_kinds h h. Proof. intros h a. reflexivity. Qed.
Lemma same_trans : forall a b c, same_kinds a b -> same_kinds b c -> same_kinds a c. Proof. intros a b c H1 H2 x. now rewrite H2. Qed.
Lemma same_sym : forall a b, same_kinds a b -> same_kinds b a. Proof. intros a b H x. now rewrite H. Qed.
Lemma assign_kinds : forall e a h, same_kinds h (assign e a h).
Proof. intros e a h b. unfold skel. rewrite assign_spec. destruct (Nat.eqb_spec b a) as [->|]; [|reflexivity]. destruct (h a); reflexivity. Qed.
Lemma skel_some : forall h a k, skel h a = Some k <-> exists o, h a = Some o /\ o_kind o = k.
Proof. intros h a k. unfold skel. destruct (h a) as [o|]; cbn; split. - intro E. inversion E. exists o. auto. - intros (o' & E & K). inversion E. now subst. - discriminate. - intros (o & E & _). discriminate. Qed.
Lemma is_scalar_kinds : forall h h' a, same_kinds h h' -> is_scalar h' a = is_scalar h a.
Proof. intros h h' a H. specialize (H a). unfold skel in H. unfold is_scalar. destruct (h' a) as [[k' e']|], (h a) as [[k e]|]; cbn in H; inversion H; subst; try reflexivity; now destruct k. Qed.
Lemma is_rule_kinds : forall h h' a, same_kinds h h' -> is_rule h' a = is_rule h a.
Proof. intros h h' a H. specialize (H a). unfold skel in H. unfold is_rule. destruct (h' a) as [[k' e']|], (h a) as [[k e]|]; cbn in H; inversion H; subst; try reflexivity; now destruct k. Qed.
Lemma is_model_kinds : forall h h' a, same_kinds h h' -> is_model h' a = is_model h a.
Proof. intros h h' a H. specialize (H a). unfold skel in H. unfold is_model. destruct (h' a) as [[k' e']|], (h a) as [[k e]|]; cbn in H; inversion H; subst; try reflexivity; now destruct k. Qed.
Lemma class_kinds : forall h h' k, same_kinds h h' -> class_ok h' k = class_ok h k.
Proof.
  intros h h' k H. destruct k as [| |r|q|d b|r ms|ms]; cbn; try reflexivity; rewrite ?(is_rule_kinds _ _ _ H), ?(is_model_kinds _ _ _ H), ?(is_scalar_kinds _ _ _ H); try reflexivity.
  - induction ms as [|m ms IH]; cbn; [reflexivity|]. now rewrite IH, (is_scalar_kinds _ _ _ H).
  - induction ms as [|m ms IH]; cbn; [reflexivity|]. now rewrite IH, (is_model_kinds _ _ _ H).
Qed.
Lemma wf_kinds : forall h h', same_kinds h h' -> wf h -> wf h'.
Proof.
  intros h h' H [L C]. constructor.
  - intros a o c E I. assert (K : skel h a = Some (o_kind o)) by (rewrite <- (H a); unfold skel; now rewrite E). apply skel_some in K as (o1 & E1 & K1). rewrite <- K1 in I. destruct (L _ _ _ E1 I) as (LT & oc & EC). split; [exact LT|].
    assert (K : skel h' c = Some (o_kind oc)) by (rewrite (H c); unfold skel; now rewrite EC). apply skel_some in K as (o2 & E2 & _). now exists o2.
  - intros a o E. assert (K : skel h a = Some (o_kind o)) by (rewrite <- (H a); unfold skel; now rewrite E). apply skel_some in K as (o1 & E1 & K1). rewrite <- K1, (class_kinds _ _ _ H). now apply (C a).
Qed.
Lemma part_kinds : forall h h' a b, same_kinds h h' -> part_of h a b -> part_of h' a b.
Proof.
  intros h h' a b H P. induction P as [a|a o c b E I P IH]; [apply part_self|]. assert (K : skel h' a = Some (o_kind o)) by (rewrite (H a); unfold skel; now rewrite E). apply skel_some in K as (o1 & E1 & K1).
  eapply part_child; [exact E1|rewrite K1; exact I|exact IH].
Qed.
(** ** What set_elastic_model changes *)
Inductive toldp (h : heap) : addr -> addr -> Prop :=
  | told_self : forall a, toldp h a a
  | told_child : forall a o c b, h a = Some o -> In c (children (o_kind o)) -> is_scalar h c = false -> toldp h c b -> toldp h a b.
Definition writes (h h' : heap) (e : emodel) (S : addr -> Prop) : Prop :=
  same_kinds h h' /\ (forall b o, S b -> h' b = Some o -> o_elastic o = e) /\ (forall b, ~ S b -> h' b = h b).
Lemma told_kinds : forall h h' a b, same_kinds h h' -> toldp h a b -> toldp h' a b.
Proof.
  intros h h' a b H P. induction P as [a|a o c b E I N P IH]; [apply told_self|]. assert (K : skel h' a = Some (o_kind o)) by (rewrite (H a); unfold skel; now rewrite E). apply skel_some in K as (o1 & E1 & K1).
  eapply told_child; [exact E1|rewrite K1; exact I|now rewrite (is_scalar_kinds _ _ _ H)|exact IH].
Qed.
Lemma told_dec : forall h a, wf h -> forall b, toldp h a b \/ ~ toldp h a b.
Proof.
  intros h a W. induction a as [a IH] using lt_wf_ind. intro b. destruct (Nat.eq_dec a b) as [->|N]; [left; apply told_self|]. destruct (h a) as [o|] eqn:E.
  - assert (D : forall l, (forall c, In c l -> In c (children (o_kind o))) -> (exists c, In c l /\ is_scalar h c = false /\ toldp h c b) \/ ~ (exists c, In c l /\ is_scalar h c = false /\ toldp h c b)).
    { induction l as [|c l IHl]; intro I; [right; intros (c & [] & _)|]. destruct IHl as [(c' & I' & S' & T')|NO]; [intros; apply I; now right|left; exists c'; split; [now right|auto]|].
      destruct (is_scalar h c) eqn:S1; [right; intros (c' & [<-|I'] & S' & T'); [congruence|apply NO; eauto]|].
      destruct (IH c) with (b := b) as [T|T]; [apply (wf_lower h W a o c E); apply I; now left|left; exists c; split; [now left|auto]|right; intros (c' & [<-|I'] & S' & T'); [contradiction|apply NO; eauto]]. }
    destruct (D _ (fun c x => x)) as [(c & I & S1 & T)|NO]; [left; eapply told_child; eauto|]. right. intro T. inversion T as [|? o' c ? E' I S1 T']; subst; [congruence|]. rewrite E in E'. inversion E'; subst. apply NO. eauto.
  - right. intro T. inversion T as [|? o' c ? E' I S1 T']; subst; congruence.
Qed.
Lemma writes_comp : forall h h1 h2 e A B, (forall b, B b \/ ~ B b) -> (forall b, A b \/ ~ A b) -> writes h h1 e A -> writes h1 h2 e B -> writes h h2 e (fun b => A b \/ B b).
Proof.
  intros h h1 h2 e A B DB DA (K1 & W1 & F1) (K2 & W2 & F2). split; [eapply same_trans; eassumption|]. split.
  - intros b o [HA|HB] E; [|eapply W2; eassumption]. destruct (DB b) as [HB|NB]; [eapply W2; eassumption|]. rewrite (F2 b NB) in E. eapply W1; eassumption.
  - intros b N. rewrite F2, F1; [reflexivity| |]; intro; apply N; tauto.
Qed.
Lemma writes_ext : forall h h' e A B, (forall b, A b <-> B b) -> writes h h' e A -> writes h h' e B.
Proof. intros h h' e A B X (K & W & F). split; [exact K|]. split; [intros b o HB E; eapply W; [apply X; exact HB|exact E]|intros b N; apply F; intro HA; apply N, X, HA]. Qed.
Lemma assign_writes : forall e a h, writes h (assign e a h) e (fun b => b = a).
Proof.
  intros e a h. split; [apply assign_kinds|]. split.
  - intros b o -> E. rewrite assign_spec, Nat.eqb_refl in E. destruct (h a); [|discriminate]. inversion E. reflexivity.
  - intros b N. rewrite assign_spec. apply Nat.eqb_neq in N. now rewrite N.
Qed.
Lemma set_el_writes : forall n e a h, wf h -> (a < n)%nat -> (exists o, h a = Some o) -> is_scalar h a = false -> exists h', set_el n e a h = Some h' /\ writes h h' e (toldp h a).
Proof.
  induction n as [|n IH]; intros e a h W L (o & E) S; [lia|]. cbn [set_el]. rewrite E. pose proof (assign_writes e a h) as AW. pose proof (assign_kinds e a h) as AK. pose proof (wf_kinds _ _ AK W) as W1.
  assert (C := wf_class h W a o E). assert (LOW := wf_lower h W a o).
  assert (ONE : forall c, In c (children (o_kind o)) -> is_scalar h c = false -> exists h', set_el n e c (assign e a h) = Some h' /\ writes (assign e a h) h' e (toldp h c)).
  { intros c I SC. destruct (LOW c E I) as (LT & oc & EC). destruct (IH e c (assign e a h) W1) as (h' & E' & WR); [lia| |now rewrite (is_scalar_kinds _ _ _ AK)|].
    - assert (K : skel (assign e a h) c = Some (o_kind oc)) by (rewrite (AK c); unfold skel; now rewrite EC). apply skel_some in K as (x & X & _). now exists x.
    - exists h'. split; [exact E'|]. eapply writes_ext; [|exact WR]. intro b. split; apply told_kinds; [now apply same_sym|exact AK]. }
  assert (SUB : forall c, In c (children (o_kind o)) -> is_scalar h c = false -> (forall d, In d (children (o_kind o)) -> is_scalar h d = false -> d = c) ->
    exists h', set_el n e c (assign e a h) = Some h' /\ writes h h' e (toldp h a)).
  { intros c I SC U. destruct (ONE c I SC) as (h' & E' & WR). exists h'. split; [exact E'|]. eapply writes_ext; [|eapply writes_comp; [| |exact AW|exact WR]].
    - intro b. split; [intros [->|T]; [apply told_self|eapply told_child; eauto]|]. intro T. inversion T as [|? o' d ? E2 I2 S2 T2]; subst; [now left|right]. rewrite E in E2. inversion E2; subst. now rewrite <- (U d I2 S2).
    - apply told_dec. exact W.
    - intro b. destruct (Nat.eq_dec b a); tauto. }
  destruct (o_kind o) as [| |r|q|d b|r ms|ms] eqn:K; cbn [children] in *.
  - eexists. split; [reflexivity|]. eapply writes_ext; [|exact AW]. intro b. split; [intros ->; apply told_self|]. intro T. inversion T as [|? o' d ? E2 I2 S2 T2]; subst; [reflexivity|]. rewrite E in E2. inversion E2; subst. rewrite K in I2. destruct I2.
  - eexists. split; [reflexivity|]. eapply writes_ext; [|exact AW]. intro b. split; [intros ->; apply told_self|]. intro T. inversion T as [|? o' d ? E2 I2 S2 T2]; subst; [reflexivity|]. rewrite E in E2. inversion E2; subst. rewrite K in I2. destruct I2.
  - cbn in C. apply SUB; [now left| |intros d [<-|[]] _; reflexivity]. unfold is_rule in C. unfold is_scalar. destruct (h r) as [[[] ?]|]; try discriminate; reflexivity.
  - cbn in C. apply SUB; [now left| |intros d [<-|[]] _; reflexivity]. unfold is_model in C. unfold is_scalar. destruct (h q) as [[[] ?]|]; try discriminate; reflexivity.
  - cbn in C. apply andb_true_iff in C as (C1 & C2). apply SUB; [right; now left| |].
    + unfold is_model in C2. unfold is_scalar. destruct (h b) as [[[] ?]|]; try discriminate; reflexivity.
    + intros x [<-|[<-|[]]] SX; [congruence|reflexivity].
  - exfalso. unfold is_scalar in S. rewrite E in S. destruct o as [k ee]. cbn in K. subst k. discriminate.
  - cbn in C. rewrite forallb_forall in C.
    assert (SC : forall m, In m ms -> is_scalar h m = false). { intros m I. specialize (C m I). unfold is_model in C. unfold is_scalar. destruct (h m) as [[[] ?]|]; try discriminate; reflexivity. }
    assert (FOLD : forall l h1 A, (forall m, In m l -> In m ms) -> (forall b, A b \/ ~ A b) -> writes h h1 e A ->
      exists h', fold_left (fun r m => match r with Some h => set_el n e m h | None => None end) l (Some h1) = Some h' /\ writes h h' e (fun b => A b \/ exists m, In m l /\ toldp h m b)).
    { induction l as [|m l IHl]; intros h1 A I DA WA; cbn [fold_left].
      - exists h1. split; [reflexivity|]. eapply writes_ext; [|exact WA]. intro b. split; [tauto|]. intros [H|(m & [] & _)]. exact H.
      - destruct WA as (K1 & WA). assert (IM : In m ms) by (apply I; now left). destruct (LOW m E IM) as (LT & om & EM).
        destruct (IH e m h1 (wf_kinds _ _ K1 W)) as (h2 & E2 & WR); [lia| |rewrite (is_scalar_kinds _ _ _ K1); now apply SC|].
        + assert (KK : skel h1 m = Some (o_kind om)) by (rewrite (K1 m); unfold skel; now rewrite EM). apply skel_some in KK as (x & X & _). now exists x.
        + rewrite E2. assert (WR' : writes h1 h2 e (toldp h m)) by (eapply writes_ext; [|exact WR]; intro b; split; apply told_kinds; [now apply same_sym|exact K1]).
          assert (DM := told_dec h m W). destruct (IHl h2 (fun b => A b \/ toldp h m b)) as (h3 & E3 & W3).
          * intros x IX. apply I. now right.
          * intro b. destruct (DA b), (DM b); tauto.
          * eapply writes_comp; [exact DM|exact DA|split; [exact K1|exact WA]|exact WR'].
          * exists h3. split; [exact E3|]. eapply writes_ext; [|exact W3]. intro b. split.
            -- intros [[H|H]|(x & IX & H)]; [now left|right; exists m; split; [now left|exact H]|right; exists x; split; [now right|exact H]].
            -- intros [H|(x & [<-|IX] & H)]; [left; now left|left; now right|right; eauto]. }
    destruct (FOLD ms (assign e a h) (fun b => b = a)) as (h' & E' & WR); [auto|intro b; destruct (Nat.eq_dec b a); tauto|exact AW|]. exists h'. split; [exact E'|].
    eapply writes_ext; [|exact WR]. intro b. split.
    + intros [->|(m & I & T)]; [apply told_self|]. eapply told_child; [exact E|rewrite K; exact I|now apply SC|exact T].
    + intro T. inversion T as [|? o' d ? E2 I2 S2 T2]; subst; [now left|right]. rewrite E in E2. inversion E2; subst. rewrite K in I2. eauto.
Qed.
(** told objects are the parts that are no damage *)
Lemma scalar_parts : forall h a b, wf h -> is_scalar h a = true -> part_of h a b -> is_scalar h b = true.
Proof.
  intros h a b W S P. induction P as [a|a o c b E I P IH]; [exact S|]. apply IH. pose proof (wf_class h W a o E) as C. unfold is_scalar in S. rewrite E in S. destruct o as [[] ee]; try discriminate. cbn in *. rewrite forallb_forall in C. now apply C.
Qed.
Lemma told_spec : forall h a b, wf h -> is_scalar h a = false -> (toldp h a b <-> part_of h a b /\ is_scalar h b = false).
Proof.
  intros h a b W S. split.
  - intro T. induction T as [a|a o c b E I N T IH]; [split; [apply part_self|exact S]|]. destruct (IH N) as (P & SB). split; [eapply part_child; eauto|exact SB].
  - intros (P & SB). induction P as [a|a o c b E I P IH]; [apply told_self|]. destruct (is_scalar h c) eqn:SC; [rewrite (scalar_parts _ _ _ W SC P) in SB; discriminate|]. eapply told_child; eauto.
Qed.
Lemma scalar_iff : forall h a, is_scalar h a = true <-> scalar_damage h a.
Proof. intros h a. unfold is_scalar, scalar_damage. split. - destruct (h a) as [[[] ee]|] eqn:E; try discriminate. intros _. eexists. split; [reflexivity|]. cbn. eauto. - intros ([k ee] & E & r & ms & K). rewrite E. cbn in K. now subst. Qed.
Lemma model_scalar : forall h a, is_model h a = true -> is_scalar h a = false /\ exists o, h a = Some o.
Proof. intros h a M. unfold is_model in M. unfold is_scalar. destruct (h a) as [[[] ee]|]; try discriminate; split; try reflexivity; eauto. Qed.
(** ** Programs *)
Definition good (s : state) : Prop := wf (s_heap s) /\ (forall a, s_next s <= a -> s_heap s a = None)%nat.
Lemma mem_scalar : forall h a, is_scalar h a = true -> exists o, h a = Some o. Proof. intros h a S. unfold is_scalar in S. destruct (h a); [eauto|discriminate]. Qed.
Lemma mem_rule : forall h a, is_rule h a = true -> exists o, h a = Some o. Proof. intros h a S. unfold is_rule in S. destruct (h a); [eauto|discriminate]. Qed.
Lemma class_children : forall h k c, class_ok h k = true -> In c (children k) -> exists o, h c = Some o.
Proof.
  intros h k c C I. destruct k as [| |r|q|d b|r ms|ms]; cbn in *; try contradiction.
  - destruct I as [<-|[]]. now apply mem_rule. - destruct I as [<-|[]]. now apply model_scalar.
  - apply andb_true_iff in C as (C1 & C2). destruct I as [<-|[<-|[]]]; [now apply mem_scalar|now apply model_scalar].
  - rewrite forallb_forall in C. now apply mem_scalar, C. - rewrite forallb_forall in C. now apply model_scalar, C.
Qed.
Lemma class_grow : forall h h' k, (forall a o, h a = Some o -> h' a = Some o) -> class_ok h k = true -> class_ok h' k = true.
Proof.
  intros h h' k G C. assert (R : forall a, is_rule h a = true -> is_rule h' a = true). { intros a X. unfold is_rule in *. destruct (h a) eqn:E; [|discriminate]. now rewrite (G _ _ E). }
  assert (M : forall a, is_model h a = true -> is_model h' a = true). { intros a X. unfold is_model in *. destruct (h a) eqn:E; [|discriminate]. now rewrite (G _ _ E). }
  assert (S : forall a, is_scalar h a = true -> is_scalar h' a = true). { intros a X. unfold is_scalar in *. destruct (h a) eqn:E; [|discriminate]. now rewrite (G _ _ E). }
  destruct k as [| |r|q|d b|r ms|ms]; cbn in *; auto.
  - apply andb_true_iff in C as (C1 & C2). now rewrite S, M. - rewrite forallb_forall in *. auto. - rewrite forallb_forall in *. auto.
Qed.
Lemma step_good : forall s o s', good s -> step s o = Some s' -> good s'.
Proof.
  intros s o s' (W & F) E. destruct o as [k e|a e]; cbn [step] in E.
  - destruct (class_ok (s_heap s) k) eqn:C; [|discriminate]. inversion E; subst; clear E. unfold good. cbn [s_heap s_next].
    assert (G : forall a o, s_heap s a = Some o -> put (s_heap s) (s_next s) (mkObj k e) a = Some o). { intros a o X. unfold put. destruct (Nat.eqb_spec a (s_next s)) as [->|]; [rewrite F in X by lia; discriminate|exact X]. }
    split; [constructor|].
    + intros a o c E I. unfold put in E. destruct (Nat.eqb_spec a (s_next s)) as [->|N].
      * inversion E; subst. cbn in I. destruct (class_children _ _ _ C I) as (oc & EC). split; [|exists oc; auto]. destruct (le_lt_dec (s_next s) c); [rewrite F in EC by assumption; discriminate|assumption].
      * destruct (wf_lower _ W a o c E I) as (L & oc & EC). split; [exact L|exists oc; auto].
    + intros a o E. unfold put in E. apply (class_grow (s_heap s)); [exact G|]. destruct (Nat.eqb_spec a (s_next s)) as [->|N]; [inversion E; subst; exact C|now apply (wf_class _ W a)].
    + intros a L. unfold put. destruct (Nat.eqb_spec a (s_next s)); [lia|]. apply F. lia.
  - destruct (is_model (s_heap s) a) eqn:M; [|discriminate]. destruct (model_scalar _ _ M) as (SC & EX). destruct (set_el_writes (S a) e a (s_heap s) W) as (h' & E' & WR); [lia|exact EX|exact SC|].
    unfold set_elastic_model in E. rewrite E' in E. inversion E; subst. unfold good. cbn. destruct WR as (K & _ & _). split; [now apply (wf_kinds (s_heap s))|].
    intros b L. specialize (K b). unfold skel in K. rewrite (F b L) in K. destruct (h' b); [discriminate|reflexivity].
Qed.
Lemma run_good : forall l s s', good s -> run s l = Some s' -> good s'.
Proof. induction l as [|o l IH]; intros s s' G E; cbn in E; [now inversion E; subst|]. destruct (step s o) as [s1|] eqn:ES; [|discriminate]. apply (IH s1); [now apply (step_good s o)|exact E]. Qed.
Lemma start_good : good start.
Proof. split; [constructor; intros; discriminate|reflexivity]. Qed.
Lemma reachable_good : forall s, reachable s -> good s. Proof. intros s (l & E). eapply run_good; [apply start_good|exact E]. Qed.

(** ** The properties *)
(** the call returns; every part that is no damage has the new elastic model, everything else is as before *)
Lemma set_spec : forall s a e, reachable s -> is_model (s_heap s) a = true -> exists h', set_elastic_model e a (s_heap s) = Some h'
  /\ (forall b, part_of (s_heap s) a b -> ~ scalar_damage (s_heap s) b -> elastic b h' = Some e)
  /\ (forall b, ~ (part_of (s_heap s) a b /\ ~ scalar_damage (s_heap s) b) -> h' b = s_heap s b)
  /\ (forall b, option_map o_kind (h' b) = option_map o_kind (s_heap s b)).
Proof.
  intros s a e R M. destruct (reachable_good s R) as (W & F). destruct (model_scalar _ _ M) as (SC & EX). destruct (set_el_writes (S a) e a (s_heap s) W) as (h' & E' & K & WR & FR); [lia|exact EX|exact SC|].
  assert (OUT : forall b, ~ (part_of (s_heap s) a b /\ ~ scalar_damage (s_heap s) b) -> h' b = s_heap s b).
  { intros b N. apply FR. intro T. apply told_spec in T as (P & SB); [|exact W|exact SC]. apply N. split; [exact P|]. rewrite <- scalar_iff, SB. discriminate. }
  assert (PART : forall b, part_of (s_heap s) a b -> exists o, s_heap s b = Some o).
  { intros b P. clear -W EX P. induction P as [a|a o c b E I P IH]; [exact EX|]. apply IH. now apply (wf_lower _ W a o c). }
  exists h'. split; [exact E'|]. split; [|split; [exact OUT|exact K]].
  - intros b P N. destruct (PART b P) as (o & EB). specialize (K b). unfold skel in K. rewrite EB in K. unfold elastic. destruct (h' b) as [o'|] eqn:EB'; [|discriminate]. cbn. f_equal. apply (WR b o'); [|exact EB'].
    apply told_spec; [exact W|exact SC|]. split; [exact P|]. destruct (is_scalar (s_heap s) b) eqn:SB; [|reflexivity]. exfalso. apply N. now apply scalar_iff.
Qed.
Lemma view_some : forall n h a, wf h -> (a < n)%nat -> (exists o, h a = Some o) -> exists t, view n h a = Some t.
Proof. intros [|n] h a W L (o & E); [lia|]. cbn. rewrite E. eauto. Qed.
(** behaviour: as a model built with the new elastic model *)
Lemma set_rebuilt : forall s a e, reachable s -> is_model (s_heap s) a = true -> (forall b, part_of (s_heap s) a b -> ~ reading_damage (s_heap s) b) ->
  exists h' t, set_elastic_model e a (s_heap s) = Some h' /\ behaviour (s_heap s) a = Some t /\ behaviour h' a = Some (rebuilt e t).
Proof.
  intros s a e R M ND. destruct (set_spec s a e R M) as (h' & E' & HE & _ & K). destruct (reachable_good s R) as (W & _). destruct (model_scalar _ _ M) as (_ & EX).
  destruct (view_some (S a) (s_heap s) a W) as (t & ET); [lia|exact EX|]. exists h', t. split; [exact E'|]. split; [exact ET|]. clear M. unfold behaviour in *.
  assert (G : forall n b, part_of (s_heap s) a b -> view n h' b = option_map (rebuilt e) (view n (s_heap s) b)).
  { induction n as [|n IH]; intros b P; [reflexivity|]. cbn [view]. pose proof (K b) as KB. destruct (s_heap s b) as [o|] eqn:EB; destruct (h' b) as [o'|] eqn:EB'; try discriminate; [|reflexivity]. cbn in KB. inversion KB as [KK]. rewrite KK. cbn [option_map rebuilt]. f_equal. f_equal.
    - unfold reads. rewrite KK. destruct (o_kind o) as [| |r|q|d bb|[] ms|ms] eqn:KO; cbn; try reflexivity; try (f_equal; assert (EL : elastic b h' = Some e) by (apply HE; [exact P|intros (x & EX2 & r2 & ms2 & KX); rewrite EB in EX2; inversion EX2; subst; rewrite KO in KX; discriminate]); unfold elastic in EL; rewrite EB' in EL; now inversion EL).
      exfalso. apply (ND b P). exists o. split; [exact EB|]. eauto.
    - rewrite map_map. apply map_ext_in. intros c I. rewrite IH.
      + destruct (view n (s_heap s) c); reflexivity.
      + clear -P EB I. induction P as [x|x ox y b E1 I1 P IH]; [eapply part_child; [exact EB|exact I|apply part_self]|eapply part_child; eauto]. }
  rewrite G by apply part_self. now rewrite ET.
Qed.
(** models that share nothing with it do not change *)
Lemma set_frame : forall s a e b h', reachable s -> is_model (s_heap s) a = true -> set_elastic_model e a (s_heap s) = Some h' -> (forall c, part_of (s_heap s) a c -> part_of (s_heap s) b c -> scalar_damage (s_heap s) c) ->
  behaviour h' b = behaviour (s_heap s) b.
Proof.
  intros s a e b h' R M E D. destruct (set_spec s a e R M) as (h1 & E1 & _ & OUT & K). rewrite E in E1. inversion E1; subst h1. unfold behaviour.
  assert (G : forall n c, part_of (s_heap s) b c -> view n h' c = view n (s_heap s) c).
  { induction n as [|n IH]; intros c P; [reflexivity|]. cbn [view]. rewrite OUT by (intros (PA & N); apply N; now apply D). destruct (s_heap s c) as [o|] eqn:EC; [|reflexivity]. f_equal. f_equal. apply map_ext_in. intros x I. rewrite IH; [reflexivity|].
    clear -P EC I. induction P as [y|y ox z c E1 I1 P IH]; [eapply part_child; [exact EC|exact I|apply part_self]|eapply part_child; eauto]. }
  apply G, part_self.
Qed.
(** the last call counts *)
Lemma set_again : forall s a e1 e2 h1, reachable s -> is_model (s_heap s) a = true -> set_elastic_model e1 a (s_heap s) = Some h1 ->
  exists h2 h12, set_elastic_model e2 a (s_heap s) = Some h2 /\ set_elastic_model e2 a h1 = Some h12 /\ forall b, h12 b = h2 b.
Proof.
  intros s a e1 e2 h1 R M E1. assert (R1 : reachable (mkState (s_next s) h1)).
  { destruct R as (l & ER). exists (l ++ [SetElastic a e1]). assert (A : forall l s0 s1 o, run s0 l = Some s1 -> run s0 (l ++ [o]) = step s1 o). { clear. induction l as [|x l IH]; intros s0 s1 o E; cbn in *; [inversion E; subst; destruct (step s1 o); reflexivity|]. destruct (step s0 x); [now apply IH|discriminate]. }
    rewrite (A _ _ _ _ ER). cbn [step]. now rewrite M, E1. }
  destruct (set_spec s a e1 R M) as (h1' & E1' & _ & O1 & K1). rewrite E1 in E1'. inversion E1'; subst h1'. destruct (set_spec s a e2 R M) as (h2 & E2 & P2 & O2 & K2).
  assert (M1 : is_model h1 a = true) by (rewrite (is_model_kinds (s_heap s) h1); [exact M|exact K1]).
  destruct (set_spec (mkState (s_next s) h1) a e2 R1 M1) as (h12 & E12 & P12 & O12 & K12). cbn [s_heap] in *. exists h2, h12. split; [exact E2|]. split; [exact E12|]. intro b.
  destruct (reachable_good s R) as (W & _). destruct (model_scalar _ _ M) as (SC & _).
  destruct (told_dec (s_heap s) a W b) as [T|T].
  - apply told_spec in T as (P & SB); [|exact W|exact SC]. assert (N : ~ scalar_damage (s_heap s) b) by (rewrite <- scalar_iff, SB; discriminate).
    specialize (P2 b P N). assert (P1 : elastic b h12 = Some e2). { apply P12; [now apply (part_kinds (s_heap s))|]. rewrite <- scalar_iff, (is_scalar_kinds (s_heap s) h1) by exact K1. rewrite SB. discriminate. }
    unfold elastic in *. specialize (K12 b). specialize (K1 b). specialize (K2 b). destruct (h12 b) as [[]|], (h2 b) as [[]|]; try discriminate. cbn in *. rewrite K1, <- K2 in K12. now inversion K12; inversion P1; inversion P2; subst.
  - assert (N : ~ (part_of (s_heap s) a b /\ ~ scalar_damage (s_heap s) b)). { intros (P & N). apply T. apply told_spec; [exact W|exact SC|]. split; [exact P|]. destruct (is_scalar (s_heap s) b) eqn:SB; [|reflexivity]. exfalso. apply N. now apply scalar_iff. }
    rewrite (O2 b N). rewrite O12; [now apply O1|]. intros (P & N1). apply N. split; [apply (part_kinds h1); [apply same_sym; exact K1|exact P]|]. rewrite <- scalar_iff in N1 |- *. now rewrite (is_scalar_kinds (s_heap s) h1) in N1 by exact K1.
Qed.
(** a program that uses one elastic model throughout *)
Lemma uniform_run : forall e l s s', (forall a o, s_heap s a = Some o -> o_elastic o = e) -> good s -> run s (map (with_elastic e) l) = Some s' -> forall a o, s_heap s' a = Some o -> o_elastic o = e.
Proof.
  intros e. induction l as [|x l IH]; intros s s' U G E; cbn in E; [now inversion E; subst|]. destruct (step s (with_elastic e x)) as [s1|] eqn:ES; [|discriminate]. apply (IH s1); [|now apply (step_good s (with_elastic e x))|exact E].
  destruct x as [k e'|a e']; cbn [with_elastic step] in ES.
  - destruct (class_ok (s_heap s) k); [|discriminate]. inversion ES; subst. cbn. intros a o. unfold put. destruct (Nat.eqb a (s_next s)); [intro X; now inversion X|apply U].
  - destruct (is_model (s_heap s) a) eqn:M; [|discriminate]. destruct (model_scalar _ _ M) as (SC & EX). destruct G as (W & _). destruct (set_el_writes (S a) e a (s_heap s) W) as (h' & E' & K & WR & FR); [lia|exact EX|exact SC|]. unfold set_elastic_model in ES. rewrite E' in ES. inversion ES; subst. cbn.
    intros b o EB. destruct (told_dec (s_heap s) a W b) as [T|T]; [eapply WR; eassumption|]. rewrite FR in EB by exact T. eapply U; exact EB.
Qed.
Lemma built_alike : forall e l s, run start (map (with_elastic e) l) = Some s -> forall a o, s_heap s a = Some o -> o_elastic o = e.
Proof. intros e l s E. eapply uniform_run; [|apply start_good|exact E]. intros a o X. discriminate. Qed.
Lemma put_kinds : forall h1 h2 a k e1 e2, same_kinds h1 h2 -> same_kinds (put h1 a (mkObj k e1)) (put h2 a (mkObj k e2)).
Proof. intros h1 h2 a k e1 e2 K b. unfold skel, put. destruct (Nat.eqb b a); [reflexivity|apply K]. Qed.
Lemma rerun_kinds : forall e l s s1 s', good s -> good s1 -> s_next s1 = s_next s -> same_kinds (s_heap s) (s_heap s1) -> run s l = Some s' ->
  exists s1', run s1 (map (with_elastic e) l) = Some s1' /\ same_kinds (s_heap s') (s_heap s1').
Proof.
  intros e. induction l as [|x l IH]; intros s s1 s' G G1 N K E; cbn in E.
  - inversion E; subst. exists s1. split; [reflexivity|exact K].
  - destruct (step s x) as [t|] eqn:ES; [|discriminate]. assert (ST : exists t1, step s1 (with_elastic e x) = Some t1 /\ s_next t1 = s_next t /\ same_kinds (s_heap t) (s_heap t1)).
    { destruct x as [k e'|a e']; cbn [with_elastic step] in *.
      - rewrite (class_kinds _ _ _ K). destruct (class_ok (s_heap s) k); [|discriminate]. inversion ES; subst. eexists. split; [reflexivity|]. cbn. rewrite N. split; [reflexivity|]. now apply put_kinds.
      - rewrite (is_model_kinds _ _ _ K). destruct (is_model (s_heap s) a) eqn:M; [|discriminate]. destruct (model_scalar _ _ M) as (SC & EX). assert (M1 : is_model (s_heap s1) a = true) by now rewrite (is_model_kinds _ _ _ K). destruct (model_scalar _ _ M1) as (SC1 & EX1).
        destruct G as (W & _). destruct G1 as (W1 & _). destruct (set_el_writes (S a) e' a (s_heap s) W) as (h' & E' & KK & _ & _); [lia|exact EX|exact SC|]. destruct (set_el_writes (S a) e a (s_heap s1) W1) as (h1' & E1' & KK1 & _ & _); [lia|exact EX1|exact SC1|].
        unfold set_elastic_model in *. rewrite E' in ES. rewrite E1'. inversion ES; subst. eexists. split; [reflexivity|]. cbn. split; [exact N|]. eapply same_trans; [apply same_sym; exact KK|]. eapply same_trans; [exact K|exact KK1]. }
    destruct ST as (t1 & ES1 & N1 & K1). cbn [map run]. rewrite ES1. apply (IH t); [now apply (step_good s x)|now apply (step_good s1 (with_elastic e x))|exact N1|exact K1|exact E].
Qed.
(** after the call the model behaves as if the whole program had been written with that elastic model *)
Lemma set_as_written : forall l s a e, run start l = Some s -> is_model (s_heap s) a = true -> (forall b, part_of (s_heap s) a b -> ~ reading_damage (s_heap s) b) ->
  exists h' s', set_elastic_model e a (s_heap s) = Some h' /\ run start (map (with_elastic e) l) = Some s' /\ behaviour h' a = behaviour (s_heap s') a.
Proof.
  intros l s a e ER M ND. assert (R : reachable s) by (now exists l). destruct (set_spec s a e R M) as (h' & E' & HE & _ & K). destruct (rerun_kinds e l start start s start_good start_good eq_refl (same_refl _) ER) as (s' & ES & KS).
  exists h', s'. split; [exact E'|]. split; [exact ES|]. pose proof (built_alike e l s' ES) as U. unfold behaviour.
  assert (G : forall n b, part_of (s_heap s) a b -> view n h' b = view n (s_heap s') b).
  { induction n as [|n IH]; intros b P; [reflexivity|]. cbn [view]. pose proof (K b) as KB. pose proof (KS b) as KB2. unfold skel in KB2. destruct (s_heap s b) as [o|] eqn:EB; destruct (h' b) as [o'|] eqn:EB'; destruct (s_heap s' b) as [o2|] eqn:EB2; try discriminate; [|reflexivity].
    cbn in KB, KB2. inversion KB as [KK]. inversion KB2 as [KK2]. rewrite KK2, KK. f_equal. f_equal.
    - unfold reads. rewrite KK, KK2. rewrite (U b o2 EB2). destruct (o_kind o) as [| |r|q|d bb|[] ms|ms] eqn:KO; cbn; try reflexivity; try (f_equal; assert (EL : elastic b h' = Some e) by (apply HE; [exact P|intros (x & EX2 & r2 & ms2 & KX); rewrite EB in EX2; inversion EX2; subst; rewrite KO in KX; discriminate]); unfold elastic in EL; rewrite EB' in EL; now inversion EL).
      exfalso. apply (ND b P). exists o. split; [exact EB|]. eauto.
    - apply map_ext_in. intros c I. rewrite IH; [reflexivity|].
      clear -P EB I. induction P as [x|x ox y b E1 I1 P IH]; [eapply part_child; [exact EB|exact I|apply part_self]|eapply part_child; eauto]. }
  apply G, part_self.
Qed.
