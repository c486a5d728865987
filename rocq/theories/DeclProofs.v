(** Proofs for C102. *)
From Coq Require Import String Ascii ZArith List Bool Lia.
From Verif Require Import Base.

From Verif Require Import DeclModel.
From Verif Require Import DeclTable.
From Verif Require Import DeclSpec.
Import ListNotations.

(** ** Boolean conditions on a row *)
(** the default has the declared type and is not cut *)
Definition default_ok (t : dtype) (d : dflt) : bool :=
  match d with
  | Ddouble _ _ => dtype_eq t DTdouble | Dint _ => dtype_eq t DTint | Dbool _ => dtype_eq t DTbool
  | Dsize _ => dtype_eq t DTsize
  | Dlit s => dtype_eq t DTstring && Nat.eqb (String.length s) 1
  | Dstring _ => dtype_eq t DTstring
  | Dbrace => dtype_eq t DTvecdouble || dtype_eq t DTvecobj
  | Dvecdouble => dtype_eq t DTvecdouble | Dvecsize => dtype_eq t DTvecsize
  | Dslip => dtype_eq t DTslip | Dtwin => dtype_eq t DTtwin
  | Dmake _ _ => dtype_eq t DTobj
  end.
(** all strings different *)
Fixpoint distinct (l : list string) : bool :=
  match l with [] => true | x :: r => negb (existsb (String.eqb x) r) && distinct r end.
(** a row without contradictions *)
Definition coherent (c : cls) : bool :=
  distinct (map d_name (c_decls c)) &&
  forallb (fun d => match d_default d with None => true | Some v => default_ok (d_type d) v end) (c_decls c) &&
  forallb (fun ra => existsb (fun d => String.eqb (d_name d) (fst ra) && dtype_eq (d_type d) (ask_type (snd ra)))
                             (c_decls c)) (c_reads c) &&
  forallb (fun d => existsb (fun ra => String.eqb (d_name d) (fst ra)) (c_reads c)) (c_decls c).

Lemma dtype_eq_true a b : dtype_eq a b = true -> a = b.
Proof. destruct a, b; simpl; congruence. Qed.
Lemma existsb_eqb x l : existsb (String.eqb x) l = true <-> In x l.
Proof.
  rewrite existsb_exists. split.
  - intros (y & Hy & E). apply String.eqb_eq in E. now subst.
  - intros H. exists x. split; auto. apply String.eqb_refl.
Qed.
Lemma distinct_NoDup l : distinct l = true -> NoDup l.
Proof.
  induction l as [|x r IH]; simpl; intros H; constructor.
  - apply andb_true_iff in H as [H _]. intros K. apply existsb_eqb in K. rewrite K in H. discriminate.
  - apply IH. now apply andb_true_iff in H as [_ H].
Qed.

Lemma default_ok_meant t d : default_ok t d = true ->
  slot_get t (slot_of_default d) = Some (meant t d) /\ type_of (meant t d) = t.
Proof.
  destruct d; simpl; intros H; try (apply dtype_eq_true in H; subst t; split; reflexivity).
  - apply andb_true_iff in H as [H L]. apply dtype_eq_true in H. subst t.
    destruct s as [|a [|b s]]; simpl in L; try discriminate. split; reflexivity.
  - apply orb_true_iff in H as [H|H]; apply dtype_eq_true in H; subst t; split; reflexivity.
Qed.
Lemma slot_get_of v : slot_get (type_of v) (slot_of v) = Some v.
Proof. destruct v; reflexivity. Qed.

(** ** Maps *)
Lemma dfind_put {A} k k' (x : A) m : dfind k (dput k' x m) = if String.eqb k k' then Some x else dfind k m.
Proof.
  induction m as [|[j y] r IH]; simpl.
  - destruct (String.eqb k k'); reflexivity.
  - destruct (String.eqb k' j) eqn:E; simpl.
    + apply String.eqb_eq in E. subst j. destruct (String.eqb k k'); reflexivity.
    + rewrite IH. destruct (String.eqb k j) eqn:F; auto.
      apply String.eqb_eq in F. subst j. destruct (String.eqb k k') eqn:G; auto.
      apply String.eqb_eq in G. subst k'. rewrite String.eqb_refl in E. discriminate.
Qed.

(** ** The parameter set *)
Fixpoint defslot (n : string) (l : list decl) : option slot :=
  match l with
  | [] => None
  | d :: r => match defslot n r with
              | Some s => Some s
              | None => if String.eqb n (d_name d) then option_map slot_of_default (d_default d) else None
              end
  end.
Fixpoint last_given (n : string) (l : list (string * dval)) : option dval :=
  match l with
  | [] => None
  | (k, v) :: r => match last_given n r with
                   | Some w => Some w
                   | None => if String.eqb n k then Some v else None
                   end
  end.

Lemma declare_all l : forall p, exists p', ds_declare_all l p = DOk p' /\ ds_type p' = ds_type p /\
  ds_names p' = ds_names p ++ map d_name l /\
  forall n, dfind n (ds_vals p') = match defslot n l with Some s => Some s | None => dfind n (ds_vals p) end.
Proof.
  induction l as [|d r IH]; intros p.
  - exists p. simpl. rewrite app_nil_r. auto.
  - assert (Hd : exists q, ds_declare d p = DOk q /\ ds_type q = ds_type p /\ ds_names q = ds_names p ++ [d_name d] /\
      forall n, dfind n (ds_vals q) =
        match (if String.eqb n (d_name d) then option_map slot_of_default (d_default d) else None) with
        | Some s => Some s | None => dfind n (ds_vals p) end).
    { unfold ds_declare. destruct (d_default d) as [v|] eqn:E.
      - unfold ds_assign. cbn [ds_add ds_names ds_type ds_types ds_vals].
        assert (X : existsb (String.eqb (d_name d)) (ds_names p ++ [d_name d]) = true).
        { apply existsb_eqb. apply in_or_app. right. now left. }
        rewrite X. eexists. split; [reflexivity|]. cbn. repeat split.
        intros n. rewrite dfind_put. destruct (String.eqb n (d_name d)); reflexivity.
      - eexists. split; [reflexivity|]. cbn. repeat split.
        intros n. destruct (String.eqb n (d_name d)); reflexivity. }
    destruct Hd as (q & Hq & Tq & Nq & Vq).
    destruct (IH q) as (p' & Hp & Tp & Np & Vp).
    exists p'. cbn [ds_declare_all]. rewrite Hq. split; [exact Hp|].
    split; [congruence|]. split.
    + rewrite Np, Nq. rewrite <- app_assoc. reflexivity.
    + intros n. rewrite Vp. cbn [defslot]. destruct (defslot n r); auto.
Qed.

Lemma assign_all l : forall p, (forall n v, In (n, v) l -> In n (ds_names p)) ->
  exists p', dassign_all l p = DOk p' /\ ds_type p' = ds_type p /\ ds_names p' = ds_names p /\
  forall n, dfind n (ds_vals p') = match last_given n l with Some v => Some (slot_of v) | None => dfind n (ds_vals p) end.
Proof.
  induction l as [|[k v] r IH]; intros p H.
  - exists p. simpl. auto.
  - cbn [dassign_all]. unfold ds_assign.
    assert (X : existsb (String.eqb k) (ds_names p) = true).
    { apply existsb_eqb. apply (H k v). now left. }
    rewrite X.
    destruct (IH (mkDset (ds_type p) (ds_names p) (ds_types p) (dput k (slot_of v) (ds_vals p))))
      as (p' & Hp & Tp & Np & Vp).
    { intros n w K. cbn. apply (H n w). now right. }
    exists p'. split; [exact Hp|]. cbn in Tp, Np. split; [exact Tp|]. split; [exact Np|].
    intros n. rewrite Vp. cbn [ds_vals last_given]. rewrite dfind_put.
    destruct (last_given n r); auto. destruct (String.eqb n k); auto.
Qed.

(** ** Values wanted *)
Lemma last_given_None l n : last_given n l = None <-> not_given l n.
Proof.
  unfold not_given. induction l as [|[k v] r IH]; simpl.
  - split; auto.
  - destruct (last_given n r) as [w|] eqn:E.
    + split; [discriminate|]. intros H. exfalso.
      assert (X : Some w = None) by (apply IH; intros w' K; apply (H w'); now right). discriminate.
    + destruct (String.eqb n k) eqn:F.
      * apply String.eqb_eq in F. subst k. split; [discriminate|]. intros H. exfalso. apply (H v). now left.
      * split; auto. intros _ w [K|K].
        -- injection K as -> ->. rewrite String.eqb_refl in F. discriminate.
        -- apply (proj1 IH eq_refl w K).
Qed.
Lemma last_given_Some l n v : last_given n l = Some v <-> given l n v.
Proof.
  unfold given. revert v. induction l as [|[k w] r IH]; intros v; simpl.
  - split; [discriminate|]. intros (l1 & l2 & E & _). destruct l1; discriminate.
  - destruct (last_given n r) as [u|] eqn:E.
    + split.
      * intros K. injection K as ->. destruct (proj1 (IH v) eq_refl) as (l1 & l2 & El & Hl).
        exists ((k, w) :: l1), l2. rewrite El. auto.
      * intros (l1 & l2 & El & Hl). destruct l1 as [|x l1]; simpl in El.
        -- injection El as -> -> ->. exfalso.
           assert (X : last_given n l2 = None) by (apply last_given_None; exact Hl). congruence.
        -- injection El as <- ->. apply IH. exists l1, l2. auto.
    + destruct (String.eqb n k) eqn:F.
      * apply String.eqb_eq in F. subst k. split.
        -- intros K. injection K as ->. exists [], r. split; auto. now apply last_given_None.
        -- intros (l1 & l2 & El & Hl). destruct l1 as [|x l1]; simpl in El.
           ++ injection El as -> ->. reflexivity.
           ++ injection El as <- ->. exfalso. apply last_given_None in E. apply (E v).
              apply in_or_app. right. now left.
      * split; [discriminate|]. intros (l1 & l2 & El & Hl). exfalso.
        destruct l1 as [|x l1]; simpl in El.
        -- injection El as -> -> ->. rewrite String.eqb_refl in F. discriminate.
        -- injection El as <- ->. apply last_given_None in E. apply (E v).
           apply in_or_app. right. now left.
Qed.

Lemma defslot_In l n s : defslot n l = Some s -> exists d df, In d l /\ d_name d = n /\ d_default d = Some df /\ s = slot_of_default df.
Proof.
  induction l as [|d r IH]; simpl; [discriminate|].
  destruct (defslot n r) as [u|].
  - intros K. injection K as ->. destruct (IH eq_refl) as (d' & df & ? & ? & ? & ?). exists d', df. auto.
  - destruct (String.eqb n (d_name d)) eqn:E; [|discriminate].
    apply String.eqb_eq in E. destruct (d_default d) as [df|] eqn:F; [|discriminate].
    intros K. injection K as <-. exists d, df. auto.
Qed.
Lemma defslot_notin l n : ~ In n (map d_name l) -> defslot n l = None.
Proof.
  intros H. destruct (defslot n l) as [s|] eqn:E; auto. exfalso.
  destruct (defslot_In _ _ _ E) as (d & df & Hd & Hn & _). apply H. rewrite <- Hn. now apply in_map.
Qed.
Lemma defslot_decl l d : NoDup (map d_name l) -> In d l -> defslot (d_name d) l = option_map slot_of_default (d_default d).
Proof.
  induction l as [|e r IH]; simpl; intros N H; [contradiction|].
  inversion N as [|x y Hn Hr]; subst.
  destruct H as [<-|H].
  - rewrite defslot_notin by exact Hn. rewrite String.eqb_refl. reflexivity.
  - rewrite (IH Hr H). destruct (d_default d); auto. cbn.
    destruct (String.eqb (d_name d) (d_name e)) eqn:E; auto.
    apply String.eqb_eq in E. exfalso. apply Hn. rewrite <- E. now apply in_map.
Qed.
Lemma decl_unique l d e : NoDup (map d_name l) -> In d l -> In e l -> d_name d = d_name e -> d = e.
Proof.
  induction l as [|x r IH]; simpl; intros N Hd He E; [contradiction|].
  inversion N as [|? ? Hn Hr]; subst.
  destruct Hd as [->|Hd], He as [->|He]; auto.
  - exfalso. apply Hn. rewrite E. now apply in_map.
  - exfalso. apply Hn. rewrite <- E. now apply in_map.
Qed.

(** ** Classes *)
Fixpoint anc (h : dbases) (fuel : nat) (c : string) : list string :=
  c :: match fuel with
       | O => []
       | S k => match dfind c h with None => [] | Some bs => flat_map (anc h k) bs end
       end.
Lemma derives_anc h k : forall c d, derives h k c d = true <-> In d (anc h k c).
Proof.
  induction k as [|k IH]; intros c d; simpl; rewrite orb_true_iff, String.eqb_eq.
  - split; intros [H|H]; auto; discriminate || contradiction.
  - split.
    + intros [H|H]; [auto|]. right. destruct (dfind c h) as [bs|]; [|discriminate].
      apply existsb_exists in H as (b & Hb & Hd). apply in_flat_map. exists b. split; auto. now apply IH.
    + intros [H|H]; [auto|]. right. destruct (dfind c h) as [bs|]; [|contradiction].
      apply in_flat_map in H as (b & Hb & Hd). apply existsb_exists. exists b. split; auto. now apply IH.
Qed.
Lemma dfind_In {A} k (m : dmap A) x : dfind k m = Some x -> In (k, x) m.
Proof.
  induction m as [|[j y] r IH]; simpl; [discriminate|].
  destruct (String.eqb k j) eqn:E; intros H.
  - apply String.eqb_eq in E. injection H as ->. left. congruence.
  - right. auto.
Qed.
Lemma derives_sound h k : forall c d, derives h k c d = true -> is_a h c d.
Proof.
  induction k as [|k IH]; intros c d; simpl; rewrite orb_true_iff, String.eqb_eq.
  - intros [->|H]; [constructor|discriminate].
  - intros [->|H]; [constructor|]. destruct (dfind c h) as [bs|] eqn:E; [|discriminate].
    apply existsb_exists in H as (b & Hb & Hd).
    apply is_a_base with bs b; auto. now apply dfind_In.
Qed.
(** the ancestors of a base are among those of the class *)
Definition closed (h : dbases) : bool :=
  forallb (fun e => forallb (fun b => forallb (fun d => existsb (String.eqb d) (anc h (length h) (fst e)))
                                              (anc h (length h) b)) (snd e)) h.
Lemma closed_hierarchy : closed hierarchy = true.
Proof. vm_compute. reflexivity. Qed.
Lemma derives_complete h c d : closed h = true -> is_a h c d -> derives h (length h) c d = true.
Proof.
  intros C H. induction H as [c|c bs b d Hc Hb _ IH].
  - destruct h; simpl; now rewrite String.eqb_refl.
  - apply derives_anc. apply derives_anc in IH.
    unfold closed in C. rewrite forallb_forall in C. specialize (C _ Hc). cbn in C.
    rewrite forallb_forall in C. specialize (C _ Hb). rewrite forallb_forall in C.
    specialize (C _ IH). now apply existsb_eqb in C.
Qed.
Lemma derives_is_a c d : derives hierarchy (length hierarchy) c d = true <-> is_a hierarchy c d.
Proof.
  split; [apply derives_sound|]. apply derives_complete, closed_hierarchy.
Qed.
Lemma casts_spec d x : casts hierarchy d x = true <-> exists o, x = Some o /\ is_a hierarchy (o_class o) d.
Proof.
  destruct x as [o|]; cbn [casts].
  - rewrite derives_is_a. split; [eauto|]. intros (o' & E & H). injection E as <-. exact H.
  - split; [discriminate|]. intros (o & E & _). discriminate.
Qed.

(** ** Reading *)
Lemma read_suits p n a v : ds_get (ask_type a) n p = Some v -> suits hierarchy a v ->
  ds_read hierarchy p n a = DOk (Some v).
Proof.
  intros G S. destruct a as [t|d|d]; cbn [ds_read ask_type suits] in *.
  - now rewrite G.
  - destruct S as (o & -> & Ho). rewrite G.
    rewrite (proj2 (casts_spec d (Some o))) by eauto. reflexivity.
  - destruct S as (l & -> & Hl). rewrite G.
    assert (X : forallb (casts hierarchy d) l = true).
    { apply forallb_forall. intros x Hx. apply casts_spec. auto. }
    now rewrite X.
Qed.
Lemma read_not_suits p n a v : ds_get (ask_type a) n p = Some v -> ~ suits hierarchy a v ->
  ds_read hierarchy p n a = DErr DWrongType.
Proof.
  intros G S. destruct a as [t|d|d]; cbn [ds_read ask_type suits] in *.
  - exfalso. auto.
  - rewrite G. destruct v; auto. destruct (casts hierarchy d o) eqn:E; auto.
    exfalso. apply S. apply casts_spec in E as (x & -> & H). eauto.
  - rewrite G. destruct v; auto. destruct (forallb (casts hierarchy d) l) eqn:E; auto.
    exfalso. apply S. exists l. split; auto. intros x Hx. rewrite forallb_forall in E.
    apply casts_spec. auto.
Qed.
Lemma read_error p n a e : ds_read hierarchy p n a = DErr e -> e = DWrongType.
Proof.
  destruct a as [t|d|d]; cbn [ds_read]; [discriminate| |]; unfold ds_get; cbn.
  - destruct (casts hierarchy d _); congruence.
  - destruct (forallb _ _); congruence.
Qed.
Lemma reads_ok p l : (forall n a, In (n, a) l -> exists v, ds_read hierarchy p n a = DOk (Some v)) ->
  exists vs, ds_reads hierarchy p l = DOk vs /\
    (forall n v, In (n, v) vs -> exists a, In (n, a) l /\ ds_read hierarchy p n a = DOk v) /\
    (forall n a, In (n, a) l -> exists v, ds_read hierarchy p n a = DOk v /\ In (n, v) vs).
Proof.
  induction l as [|[k b] r IH]; intros H.
  - exists []. cbn. repeat split; intros; contradiction.
  - destruct (H k b (or_introl eq_refl)) as (v & Hv).
    destruct IH as (vs & Hvs & A & B). { intros n a K. apply H. now right. }
    exists ((k, Some v) :: vs). cbn [ds_reads]. rewrite Hv, Hvs. split; [reflexivity|]. split.
    + intros n w [E|K].
      * injection E as <- <-. exists b. split; auto. now left.
      * destruct (A n w K) as (a & Ha & E). exists a. split; auto. now right.
    + intros n a [E|K].
      * injection E as <- <-. exists (Some v). split; auto. now left.
      * destruct (B n a K) as (w & Hw & Kw). exists w. split; auto. now right.
Qed.
Lemma reads_wrong p l n a : In (n, a) l -> ds_read hierarchy p n a = DErr DWrongType ->
  ds_reads hierarchy p l = DErr DWrongType.
Proof.
  induction l as [|[k b] r IH]; intros H E; [contradiction|]. cbn [ds_reads].
  destruct H as [H|H].
  - injection H as -> ->. now rewrite E.
  - destruct (ds_read hierarchy p k b) as [v|e] eqn:F.
    + now rewrite (IH H E).
    + now rewrite (read_error _ _ _ _ F).
Qed.

(** ** The table *)
(** every class but the two lattices *)
Definition checked (c : cls) : bool :=
  String.eqb (c_name c) "GeneralLattice" || String.eqb (c_name c) "CubicLattice" || coherent c.
Lemma classes_checked : forallb checked classes = true.
Proof. vm_compute. reflexivity. Qed.
Lemma classes_coherent c : In c classes -> ~ odd c -> coherent c = true.
Proof.
  intros H N. pose proof classes_checked as C. rewrite forallb_forall in C. specialize (C c H).
  unfold checked in C. apply orb_true_iff in C as [C|C]; auto. exfalso. apply N.
  apply orb_true_iff in C as [C|C]; apply String.eqb_eq in C; [now left|now right].
Qed.
(** the class registered under its name is itself, and so are the other two names *)
Definition self_named (c : cls) : bool :=
  String.eqb (c_type c) (c_name c) && String.eqb (c_pset c) (c_name c) && String.eqb (c_init c) (c_name c).
Lemma classes_self : forallb self_named classes = true.
Proof. vm_compute. reflexivity. Qed.
Lemma classes_self_In c : In c classes -> c_type c = c_name c /\ c_pset c = c_name c /\ c_init c = c_name c.
Proof.
  intros H. pose proof classes_self as C. rewrite forallb_forall in C. specialize (C c H).
  unfold self_named in C. rewrite !andb_true_iff, !String.eqb_eq in C. tauto.
Qed.
Lemma classes_distinct : distinct (map c_name classes) = true.
Proof. vm_compute. reflexivity. Qed.
Lemma find_unique (f : cls -> string) l c : NoDup (map f l) -> In c l ->
  List.find (fun x => String.eqb (f x) (f c)) l = Some c.
Proof.
  induction l as [|x r IH]; simpl; intros N H; [contradiction|].
  inversion N as [|? ? Hn Hr]; subst. destruct H as [->|H].
  - now rewrite String.eqb_refl.
  - destruct (String.eqb (f x) (f c)) eqn:E; auto.
    apply String.eqb_eq in E. exfalso. apply Hn. rewrite E. now apply in_map.
Qed.
Lemma named_self c : In c classes -> dnamed classes (c_name c) = Some c.
Proof.
  intros H. apply (find_unique c_name); auto. apply distinct_NoDup, classes_distinct.
Qed.
Lemma class_self c : In c classes -> dclass classes (c_type c) = Some c.
Proof.
  intros H. unfold dclass. apply (find_unique c_type).
  - assert (E : map c_type (rev classes) = rev (map c_name classes)).
    { rewrite map_rev. apply f_equal. apply map_ext_in. intros x Hx. now apply classes_self_In. }
    rewrite E. apply NoDup_rev, distinct_NoDup, classes_distinct.
  - now apply -> in_rev.
Qed.

Lemma class_self' c : In c classes -> dclass classes (c_name c) = Some c.
Proof. intros H. destruct (classes_self_In c H) as (T & _). rewrite <- T. now apply class_self. Qed.

(** The set handed to create *)
Lemma build_set c l : In c classes -> well_typed c l ->
  exists p, dbuild classes hierarchy (c_name c) l = dcreate classes hierarchy p /\
    ds_type p = c_name c /\ ds_names p = map d_name (c_decls c) /\
    forall n, dfind n (ds_vals p) = match last_given n l with
                                    | Some v => Some (slot_of v)
                                    | None => defslot n (c_decls c)
                                    end.
Proof.
  intros H W. destruct (classes_self_In c H) as (T & P & I).
  unfold dbuild, dprovide. rewrite (class_self' c H), P, (named_self c H).
  destruct (declare_all (c_decls c) (ds_new (c_type c))) as (q & Hq & Tq & Nq & Vq).
  rewrite Hq. cbn in Tq, Nq, Vq.
  destruct (assign_all l q) as (p & Hp & Tp & Np & Vp).
  { intros n v K. rewrite Nq. destruct (W n v K) as (d & Hd & Hn & _). rewrite <- Hn. now apply in_map. }
  rewrite Hp. exists p. split; auto. split; [congruence|]. split; [congruence|].
  intros n. rewrite Vp, Vq. destruct (last_given n l); auto. destruct (defslot n (c_decls c)); auto.
Qed.

Lemma coherent_parts c : coherent c = true ->
  NoDup (map d_name (c_decls c)) /\
  (forall d df, In d (c_decls c) -> d_default d = Some df -> default_ok (d_type d) df = true) /\
  (forall n a, In (n, a) (c_reads c) -> exists d, In d (c_decls c) /\ d_name d = n /\ d_type d = ask_type a) /\
  (forall d, In d (c_decls c) -> exists a, In (d_name d, a) (c_reads c)).
Proof.
  unfold coherent. rewrite !andb_true_iff. intros [[[A B] C] D].
  split; [now apply distinct_NoDup|]. split; [|split].
  - intros d df Hd E. rewrite forallb_forall in B. specialize (B d Hd). cbv beta in B. now rewrite E in B.
  - intros n a H. rewrite forallb_forall in C. specialize (C _ H). cbn in C.
    apply existsb_exists in C as (d & Hd & E). apply andb_true_iff in E as [E F].
    apply String.eqb_eq in E. apply dtype_eq_true in F. eauto.
  - intros d Hd. rewrite forallb_forall in D. specialize (D d Hd). cbv beta in D.
    apply existsb_exists in D as ([n a] & Hn & E). cbn in E. apply String.eqb_eq in E. subst n. eauto.
Qed.

(** reading a parameter gives the wanted value *)
Lemma get_wanted c l p n a v : coherent c = true -> well_typed c l ->
  (forall n, dfind n (ds_vals p) = match last_given n l with
                                   | Some v => Some (slot_of v) | None => defslot n (c_decls c) end) ->
  In (n, a) (c_reads c) -> wanted c l n v -> ds_get (ask_type a) n p = Some v.
Proof.
  intros C W V R H. destruct (coherent_parts c C) as (N & DO & RO & _).
  destruct (RO n a R) as (d & Hd & Hn & Ht). unfold ds_get. rewrite V.
  destruct H as [H|(H & e & df & He & En & Ed & ->)].
  - pose proof (proj2 (last_given_Some l n v) H) as E. rewrite E.
    destruct H as (l1 & l2 & -> & _).
    destruct (W n v) as (e & He & En & Et). { apply in_or_app. right. now left. }
    assert (d = e) by (apply (decl_unique (c_decls c)); congruence). subst e.
    rewrite <- Ht, Et. apply slot_get_of.
  - rewrite (proj2 (last_given_None l n) H).
    assert (d = e) by (apply (decl_unique (c_decls c)); congruence). subst e.
    rewrite <- Hn, (defslot_decl _ _ N Hd), Ed. cbn [option_map].
    rewrite <- Ht. now apply default_ok_meant, (DO d).
Qed.
Lemma wanted_or_missing c l d : In d (c_decls c) ->
  (exists v, wanted c l (d_name d) v) \/ missing c l (d_name d).
Proof.
  intros Hd. destruct (last_given (d_name d) l) as [v|] eqn:E.
  - left. exists v. left. now apply last_given_Some.
  - apply last_given_None in E. destruct (d_default d) as [df|] eqn:F.
    + left. exists (meant (d_type d) df). right. split; auto. exists d, df. auto.
    + right. split; auto. exists d. auto.
Qed.
Lemma wanted_unique c l n v w : NoDup (map d_name (c_decls c)) -> wanted c l n v -> wanted c l n w -> v = w.
Proof.
  intros N [H|(H & d & df & Hd & Dn & Dd & ->)] [K|(K & e & ef & He & En & Ed & ->)].
  - apply last_given_Some in H, K. congruence.
  - apply last_given_Some in H. apply last_given_None in K. congruence.
  - apply last_given_Some in K. apply last_given_None in H. congruence.
  - assert (d = e) by (apply (decl_unique (c_decls c)); congruence). subst e. congruence.
Qed.
Lemma missing_spec c l p n : NoDup (map d_name (c_decls c)) ->
  (forall n, dfind n (ds_vals p) = match last_given n l with
                                   | Some v => Some (slot_of v) | None => defslot n (c_decls c) end) ->
  In n (map d_name (c_decls c)) -> (dfind n (ds_vals p) = None <-> missing c l n).
Proof.
  intros N V I. rewrite V. apply in_map_iff in I as (d & <- & Hd).
  rewrite (defslot_decl _ _ N Hd). destruct (last_given (d_name d) l) as [v|] eqn:E.
  - split; [discriminate|]. intros (H & _). apply last_given_None in H. congruence.
  - apply last_given_None in E. split.
    + intros H. split; auto. exists d. split; auto. split; auto. destruct (d_default d); [discriminate|auto].
    + intros (_ & e & He & En & Ed). assert (d = e) by (apply (decl_unique (c_decls c)); congruence). subst e.
      now rewrite Ed.
Qed.
Lemma full_spec c l p : NoDup (map d_name (c_decls c)) -> ds_names p = map d_name (c_decls c) ->
  (forall n, dfind n (ds_vals p) = match last_given n l with
                                   | Some v => Some (slot_of v) | None => defslot n (c_decls c) end) ->
  (ds_full p = true <-> forall n, ~ missing c l n).
Proof.
  intros N E V. unfold ds_full. rewrite forallb_forall, E. split.
  - intros H n M. assert (I : In n (map d_name (c_decls c))).
    { destruct M as (_ & d & Hd & <- & _). now apply in_map. }
    specialize (H n I). apply (missing_spec c l p n N V I) in M. now rewrite M in H.
  - intros H n I. destruct (dfind n (ds_vals p)) eqn:F; auto.
    exfalso. apply (H n). now apply (missing_spec c l p n N V I).
Qed.

(** ** The property *)
Lemma decl_missing c l n : In c classes -> ~ odd c -> well_typed c l -> missing c l n ->
  exists ms, dbuild classes hierarchy (c_name c) l = DErr (DUndefined (c_name c) ms) /\
             forall k, In k ms <-> missing c l k.
Proof.
  intros H O W M. pose proof (classes_coherent c H O) as C.
  destruct (coherent_parts c C) as (N & _). destruct (build_set c l H W) as (p & -> & Tp & Np & V).
  unfold dcreate. destruct (ds_full p) eqn:F.
  - exfalso. apply (proj1 (full_spec c l p N Np V) F n M).
  - exists (ds_unassigned p). rewrite Tp. split; auto.
    intros k. unfold ds_unassigned. rewrite filter_In, Np. split.
    + intros [I D]. apply (missing_spec c l p k N V I). destruct (dfind k (ds_vals p)); [discriminate|auto].
    + intros K. assert (I : In k (map d_name (c_decls c))).
      { destruct K as (_ & d & Hd & <- & _). now apply in_map. }
      split; auto. apply (missing_spec c l p k N V I) in K. now rewrite K.
Qed.
Lemma create_reads c p : In c classes -> ds_type p = c_name c -> ds_full p = true ->
  dcreate classes hierarchy p =
  match ds_reads hierarchy p (c_reads c) with DErr e => DErr e | DOk vs => DOk (c_name c, vs) end.
Proof.
  intros H T F. destruct (classes_self_In c H) as (Tc & _ & I). unfold dcreate. rewrite F, T, <- Tc.
  rewrite (class_self c H), I, (named_self c H). now rewrite <- Tc.
Qed.
Lemma decl_wrong_class c l n a v : In c classes -> ~ odd c -> well_typed c l -> (forall k, ~ missing c l k) ->
  In (n, a) (c_reads c) -> wanted c l n v -> ~ suits hierarchy a v ->
  dbuild classes hierarchy (c_name c) l = DErr DWrongType.
Proof.
  intros H O W M R Wv S. pose proof (classes_coherent c H O) as C.
  destruct (coherent_parts c C) as (N & _). destruct (build_set c l H W) as (p & -> & Tp & Np & V).
  rewrite (create_reads c p H Tp) by now apply (full_spec c l p N Np V).
  rewrite (reads_wrong p (c_reads c) n a R); auto.
  apply read_not_suits with v; auto. now apply (get_wanted c l p n a v C W V R).
Qed.
Lemma decl_received c l : In c classes -> ~ odd c -> well_typed c l -> (forall k, ~ missing c l k) ->
  (forall n a v, In (n, a) (c_reads c) -> wanted c l n v -> suits hierarchy a v) ->
  exists vs, dbuild classes hierarchy (c_name c) l = DOk (c_name c, vs) /\
    (forall n x, In (n, x) vs -> has_parameter c n /\ exists v, x = Some v /\ wanted c l n v) /\
    (forall n, has_parameter c n -> exists v, wanted c l n v /\ In (n, Some v) vs).
Proof.
  intros H O W M S. pose proof (classes_coherent c H O) as C.
  destruct (coherent_parts c C) as (N & DO & RO & DR). destruct (build_set c l H W) as (p & -> & Tp & Np & V).
  rewrite (create_reads c p H Tp) by now apply (full_spec c l p N Np V).
  assert (G : forall n a, In (n, a) (c_reads c) ->
              has_parameter c n /\ exists v, wanted c l n v /\ ds_read hierarchy p n a = DOk (Some v)).
  { intros n a R. destruct (RO n a R) as (d & Hd & Hn & Ht). split; [exists d; auto|].
    destruct (wanted_or_missing c l d Hd) as [(v & Hv)|K].
    - rewrite Hn in Hv. exists v. split; auto. apply read_suits.
      + now apply (get_wanted c l p n a v C W V R).
      + now apply (S n a v).
    - exfalso. apply (M (d_name d) K). }
  destruct (reads_ok p (c_reads c)) as (vs & Hvs & A & B).
  { intros n a R. destruct (G n a R) as (_ & v & _ & E). eauto. }
  exists vs. rewrite Hvs. split; auto. split.
  - intros n x K. destruct (A n x K) as (a & R & E). destruct (G n a R) as (P & v & Wv & F).
    split; auto. exists v. split; auto. congruence.
  - intros n (d & Hd & <-). destruct (DR d Hd) as (a & R).
    destruct (B _ a R) as (x & E & K). destruct (G _ a R) as (_ & v & Wv & F).
    exists v. split; auto. replace (Some v) with x by congruence. exact K.
Qed.

(** An unknown name is refused *)
Lemma decl_unknown c l1 n v l2 : In c classes -> well_typed c l1 -> ~ has_parameter c n ->
  dbuild classes hierarchy (c_name c) (l1 ++ (n, v) :: l2) = DErr (DUnknown (c_name c) n).
Proof.
  intros H W U. destruct (classes_self_In c H) as (T & P & I).
  unfold dbuild, dprovide. rewrite (class_self' c H), P, (named_self c H).
  destruct (declare_all (c_decls c) (ds_new (c_type c))) as (q & Hq & Tq & Nq & Vq).
  rewrite Hq. cbn in Tq, Nq.
  assert (X : forall l q, ds_names q = map d_name (c_decls c) -> ds_type q = c_name c -> well_typed c l ->
              dassign_all (l ++ (n, v) :: l2) q = DErr (DUnknown (c_name c) n)).
  { clear Vq Tq Nq Hq q. induction l as [|[k w] r IH]; intros q Nq Tq Wl.
    - cbn. unfold ds_assign. rewrite Nq, Tq.
      destruct (existsb (String.eqb n) (map d_name (c_decls c))) eqn:E; auto.
      exfalso. apply U. apply existsb_eqb, in_map_iff in E as (d & E & Hd). exists d. auto.
    - cbn. unfold ds_assign. rewrite Nq.
      assert (E : existsb (String.eqb k) (map d_name (c_decls c)) = true).
      { apply existsb_eqb. destruct (Wl k w) as (d & Hd & <- & _); [now left|]. now apply in_map. }
      rewrite E. apply IH; auto. intros k' w' K. apply (Wl k' w'). now right. }
  rewrite (X l1 q); auto. congruence.
Qed.

(** Default objects suit *)
Definition default_suits (h : dbases) (c : cls) : bool :=
  forallb (fun ra => forallb (fun d =>
    if String.eqb (d_name d) (fst ra) then
      match d_default d, snd ra with
      | None, _ | _, Plain _ => true
      | Some (Dmake k _), Object b => derives h (length h) k b
      | Some Dbrace, Objects _ => true
      | _, _ => false
      end else true) (c_decls c)) (c_reads c).
Lemma classes_defaults : forallb (default_suits hierarchy) classes = true.
Proof. vm_compute. reflexivity. Qed.
Lemma decl_default_suits c d df a : In c classes -> ~ odd c -> In d (c_decls c) -> d_default d = Some df ->
  In (d_name d, a) (c_reads c) -> suits hierarchy a (meant (d_type d) df).
Proof.
  intros H O Hd E R. pose proof classes_defaults as C. rewrite forallb_forall in C. specialize (C c H).
  unfold default_suits in C. rewrite forallb_forall in C. specialize (C _ R). cbn [fst snd] in C.
  rewrite forallb_forall in C. specialize (C d Hd). cbv beta in C.
  rewrite String.eqb_refl, E in C.
  destruct (coherent_parts c (classes_coherent c H O)) as (N & DO & RO & _).
  specialize (DO d df Hd E). destruct (RO _ _ R) as (d' & Hd' & Hn & Ht).
  assert (d = d') by (apply (decl_unique (c_decls c)); congruence). subst d'.
  destruct a as [t|k|k]; cbn [suits ask_type] in *; auto.
  - destruct df; try discriminate. cbn. eexists. split; [reflexivity|]. cbn. now apply derives_is_a.
  - destruct df; try discriminate. rewrite Ht. cbn. exists []. split; auto. intros x [].
Qed.

(** ** Where it fails *)
Lemma lattice_twins (a1 a2 a3 : list R) (sym : string) (sl tw : list dslip) :
  dbuild classes hierarchy "GeneralLattice"
    [("a1", Xvecdouble a1); ("a2", Xvecdouble a2); ("a3", Xvecdouble a3);
     ("symmetry_group", Xobj (Some (mkDobj "SymmetryGroup" sym)));
     ("slip_systems", Xslip sl); ("twin_systems", Xslip tw)]%string =
  DOk ("GeneralLattice",
       [("a1", Some (Xvecdouble a1)); ("a2", Some (Xvecdouble a2)); ("a3", Some (Xvecdouble a3));
        ("symmetry_group", Some (Xobj (Some (mkDobj "SymmetryGroup" sym))));
        ("slip_systems", Some (Xslip sl)); ("twin_systems", Some (Xtwin []))])%string.
Proof. vm_compute. reflexivity. Qed.

(** the same for the cubic lattice *)
Lemma cubic_twins (a : R) (sl tw : list dslip) :
  dbuild classes hierarchy "CubicLattice"
    [("a", Xdouble a); ("slip_systems", Xslip sl); ("twin_systems", Xslip tw)]%string =
  DOk ("CubicLattice",
       [("a", Some (Xdouble a)); ("a", Some (Xdouble a)); ("a", Some (Xdouble a));
        ("slip_systems", Some (Xslip sl)); ("twin_systems", Some (Xtwin []))])%string.
Proof. vm_compute. reflexivity. Qed.

(** A value of another type than the declared one is stored and never seen *)
Lemma wrong_type_silent t v : type_of v <> t -> slot_get t (slot_of v) = slot_get t blank.
Proof. destruct v, t; intros H; try reflexivity; exfalso; apply H; reflexivity. Qed.
Lemma sigmoid_int (z : Z) (b : R) :
  dbuild classes hierarchy "SigmoidTransformation" [("c", Xint z); ("beta", Xdouble b)]%string =
  DOk ("SigmoidTransformation",
       [("c", None); ("beta", Some (Xdouble b)); ("cut", Some (Xdouble (1 * powerRZ 10 0)))])%string.
Proof. vm_compute. reflexivity. Qed.

(** A character literal keeps its first character *)
Lemma literal_exact s : slot_get DTstring (slot_of_literal s) = Some (Xstring s) <-> String.length s = 1%nat.
Proof.
  destruct s as [|a [|b s]]; cbn; split; intros H; try discriminate; reflexivity.
Qed.

(** Some registered class suits every need *)
Definition needs_met (h : dbases) (tab : list cls) (c : cls) : bool :=
  forallb (fun ra => match snd ra with
                     | Plain _ => true
                     | Object k | Objects k => existsb (fun x => derives h (length h) (c_name x) k) tab
                     end) (c_reads c).
Lemma classes_needs : forallb (needs_met hierarchy classes) classes = true.
Proof. vm_compute. reflexivity. Qed.
Lemma decl_obtainable c n a k : In c classes -> In (n, a) (c_reads c) -> a = Object k \/ a = Objects k ->
  exists x, In x classes /\ is_a hierarchy (c_name x) k.
Proof.
  intros H R A. pose proof classes_needs as C. rewrite forallb_forall in C. specialize (C c H).
  unfold needs_met in C. rewrite forallb_forall in C. specialize (C _ R). cbn [snd] in C.
  destruct A as [-> | ->]; apply existsb_exists in C as (x & Hx & D); exists x; split; auto; now apply derives_is_a.
Qed.
