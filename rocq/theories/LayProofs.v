From Coq Require Import String List Lia Permutation.
From Verif Require Import Base HistModel LayModel LaySpec.
From Coq Require Import List.
Import ListNotations.
Open Scope string_scope.
Open Scope list_scope.

(** ** Histories made by adding variables one after the other *)
Definition decl := list (string * stype).
Definition dsize (L : decl) : nat := list_sum (map (fun e => ssize (snd e)) L).
Fixpoint locs (o : nat) (L : decl) : amap nat := match L with [] => [] | (n, t) :: L => (n, o) :: locs (o + ssize t) L end.
Definition build (L : decl) (d : list cell) : hist := mkHist (map fst L) (locs 0 L) L d.
Lemma dsize_app : forall A B, dsize (A ++ B) = (dsize A + dsize B)%nat.
Proof. intros. unfold dsize. now rewrite map_app, list_sum_app. Qed.
Lemma locs_app : forall A B o, locs o (A ++ B) = locs o A ++ locs (o + dsize A) B.
Proof.
  induction A as [|(n, t) A IH]; intros B o; cbn [locs app]; [unfold dsize; cbn; now rewrite Nat.add_0_r|]. rewrite IH. unfold dsize. cbn. now rewrite Nat.add_assoc.
Qed.
Lemma find_none : forall A n (m : amap A), ~ In n (map fst m) -> HistModel.find n m = None.
Proof. induction m as [|(k, v) m IH]; intro H; [reflexivity|]. cbn [HistModel.find]. destruct (String.eqb_spec n k) as [->|]; [exfalso; apply H; now left|]. apply IH. intro I. apply H. now right. Qed.
Lemma find_some : forall A n (m : amap A) m' v, ~ In n (map fst m) -> HistModel.find n (m ++ (n, v) :: m') = Some v.
Proof.
  induction m as [|(k, w) m IH]; intros m' v H; cbn [HistModel.find app]; [now rewrite String.eqb_refl|]. destruct (String.eqb_spec n k) as [->|]; [exfalso; apply H; now left|]. apply IH. intro I. apply H. now right.
Qed.
Lemma locs_fst : forall L o, map fst (locs o L) = map fst L.
Proof. induction L as [|(n, t) L IH]; intro o; [reflexivity|]. cbn. now rewrite IH. Qed.
Lemma contains_build : forall n L d, hcontains n (build L d) = true <-> In n (map fst L).
Proof.
  intros n L d. unfold hcontains, build. cbn [hloc]. split.
  - intro H. destruct (in_dec string_dec n (map fst L)) as [I|I]; [exact I|]. rewrite find_none in H by now rewrite locs_fst. discriminate.
  - intro I. apply in_map_iff in I as ((n', t) & E & I). cbn in E. subst n'. destruct (in_split _ _ I) as (A & B & ->). clear I. rewrite locs_app. cbn [locs].
    revert d. generalize (0 + dsize A)%nat. induction A as [|(a, ta) A IH]; intros k d; cbn [locs app HistModel.find]; [now rewrite String.eqb_refl|].
    destruct (String.eqb n a); [reflexivity|]. assert (G : forall o m (x : amap nat), match HistModel.find n (locs o A ++ (n, m) :: x) with Some _ => true | None => false end = true).
    { clear. induction A as [|(a, t) A IH]; intros; cbn [locs app HistModel.find]; [now rewrite String.eqb_refl|]. destruct (String.eqb n a); [reflexivity|apply IH]. }
    apply G.
Qed.
Lemma add_build : forall n t L d, ~ In n (map fst L) -> length d = dsize L -> hadd n t (build L d) = HOk (build (L ++ [(n, t)]) (d ++ repeat None (ssize t))).
Proof.
  intros n t L d N D. unfold hadd. destruct (hcontains n (build L d)) eqn:C; [apply contains_build in C; contradiction|]. unfold build, insert, hsize. cbn [horder hloc htype hdata].
  rewrite (find_none _ n (locs 0 L)) by now rewrite locs_fst. rewrite (find_none _ n L) by exact N. rewrite locs_app, map_app, D. reflexivity.
Qed.
Lemma lookup_build : forall A n t B d, ~ In n (map fst A) -> hlookup t n (build (A ++ (n, t) :: B) d) = HOk (dsize A).
Proof.
  intros A n t B d N. unfold hlookup, build. cbn [hloc htype]. rewrite locs_app. cbn [locs]. rewrite find_some by now rewrite locs_fst. rewrite find_some by exact N. destruct t; reflexivity.
Qed.
Lemma overwrite_mid : forall (A : list cell) X Y Z, length X = length Y -> overwrite (length A) Y (A ++ X ++ Z) = A ++ Y ++ Z.
Proof.
  intros A X Y Z H. unfold overwrite. rewrite firstn_app, Nat.sub_diag, firstn_all, firstn_O, app_nil_r. f_equal. f_equal. rewrite skipn_app, skipn_all2 by lia. cbn [app].
  replace (length A + length Y - length A)%nat with (length X) by lia. rewrite skipn_app, skipn_all, Nat.sub_diag. reflexivity.
Qed.
Lemma set_build : forall A n t B dA X Y dB, ~ In n (map fst A) -> length dA = dsize A -> length X = ssize t -> length Y = ssize t ->
  hset t n Y (build (A ++ (n, t) :: B) (dA ++ X ++ dB)) = HOk (build (A ++ (n, t) :: B) (dA ++ Y ++ dB)).
Proof.
  intros A n t B dA X Y dB N L1 L2 L3. unfold hset. rewrite lookup_build by exact N. cbn [hbind]. unfold build. cbn [horder hloc htype hdata]. rewrite <- L1, overwrite_mid by congruence. reflexivity.
Qed.
Lemma app_cons : forall A (l : list A) x r, l ++ x :: r = (l ++ [x]) ++ r. Proof. intros. now rewrite <- app_assoc. Qed.

(** ** The variables in the order they are added *)
Definition decls (p : string) (l : list var) : decl := map (fun v => ((p ++ v_name v)%string, v_type v)) l.
Fixpoint order (m : smodel) : list var :=
  match m with
  | SLeaf own => own
  | SCreep q => order q ++ [mkVar "plastic_strain" TSymmetric (zeros 6)]
  | SDamage d0 b => mkVar "damage" TScalar [d0] :: order b
  | SRegime m _ => order m
  end.
Lemma order_slots : forall m, Permutation (slots m) (order m).
Proof.
  induction m as [own|q IH|d0 b IH|m IH ms]; cbn; [reflexivity| |now apply perm_skip|exact IH]. rewrite IH. apply Permutation_cons_append.
Qed.
Lemma decls_app : forall p A B, decls p (A ++ B) = decls p A ++ decls p B. Proof. intros. apply map_app. Qed.
Lemma dsize_decls : forall p l, dsize (decls p l) = sizes l. Proof. intros. unfold dsize, decls, sizes. now rewrite map_map. Qed.
Lemma names_decls : forall p l, map fst (decls p l) = map (append p) (map v_name l). Proof. intros. unfold decls. now rewrite !map_map. Qed.
Lemma append_inj : forall p a b, (p ++ a)%string = (p ++ b)%string -> a = b. Proof. induction p as [|c p IH]; cbn; intros a b H; [exact H|]. inversion H. now apply IH. Qed.
Lemma NoDup_mid : forall A (l r : list A) x, NoDup (l ++ x :: r) -> ~ In x l /\ ~ In x r. Proof. intros A l r x H. apply NoDup_remove_2 in H. split; intro I; apply H, in_or_app; tauto. Qed.
Definition blanks (l : list var) : list cell := repeat None (sizes l).
Lemma blanks_app : forall A B, blanks (A ++ B) = blanks A ++ blanks B.
Proof. intros. unfold blanks, sizes. rewrite map_app, list_sum_app. apply repeat_app. Qed.
Lemma add_vars_build : forall p l L d, NoDup (map fst (L ++ decls p l)) -> length d = dsize L -> add_vars p l (build L d) = HOk (build (L ++ decls p l) (d ++ blanks l)).
Proof.
  induction l as [|v l IH]; intros L d N D.
  - cbn. unfold blanks, sizes. cbn. now rewrite !app_nil_r.
  - cbn [add_vars]. assert (N2 := N). cbn [decls map] in N2. rewrite map_app in N2. cbn in N2. apply NoDup_mid in N2 as (NI & _). rewrite add_build by assumption. cbn [hbind].
    rewrite IH.
    + rewrite <- !app_assoc. unfold decls, blanks, sizes. cbn [map app list_sum]. now rewrite <- repeat_app.
    + rewrite <- app_assoc. exact N.
    + rewrite app_length, repeat_length, dsize_app, D. unfold dsize. cbn. lia.
Qed.
Lemma blanks_length : forall l, length (blanks l) = sizes l. Proof. intro. apply repeat_length. Qed.
Lemma one_blank : forall n t i, blanks [mkVar n t i] = repeat None (ssize t). Proof. intros. unfold blanks, sizes. cbn. now rewrite Nat.add_0_r. Qed.
(** without regimes any prefix will do; with regimes none, and the static variable must be there *)
Lemma pop_build : forall m p L d, no_regime m \/ (p = "" /\ In "small_stress" (map fst L)) -> NoDup (map fst (L ++ decls p (order m))) -> length d = dsize L ->
  pop_state m p (build L d) = HOk (build (L ++ decls p (order m)) (d ++ blanks (order m))).
Proof.
  induction m as [own|q IH|d0 b IH|m IH ms]; intros p L d R N D; cbn [pop_state order] in *.
  - now apply add_vars_build.
  - rewrite decls_app, app_assoc in N. rewrite IH; [|exact R| |exact D].
    + cbn [hbind]. rewrite map_app in N. cbn in N. apply NoDup_mid in N as (NI & _). rewrite add_build; [|exact NI|rewrite app_length, dsize_app, blanks_length, dsize_decls, D; lia].
      rewrite decls_app, <- !app_assoc, blanks_app, one_blank. reflexivity.
    + rewrite map_app in N. cbn in N. apply NoDup_remove_1 in N. now rewrite app_nil_r in N.
  - assert (N2 := N). cbn [decls map] in N2. rewrite map_app in N2. cbn in N2. apply NoDup_mid in N2 as (NI & _). rewrite add_build by assumption. cbn [hbind v_type v_name].
    rewrite IH.
    + rewrite <- !app_assoc. unfold blanks, sizes. cbn. reflexivity.
    + destruct R as [R|(-> & R)]; [now left|right]. split; [reflexivity|]. rewrite map_app. apply in_or_app. now left.
    + rewrite <- app_assoc. exact N.
    + rewrite app_length, repeat_length, dsize_app, D. unfold dsize. cbn. lia.
  - destruct R as [[]|(-> & R)]. unfold pop_static. replace (hcontains "small_stress" (build L d)) with true by (symmetry; now apply contains_build). cbn [hbind]. apply IH; auto.
Qed.
Definition ss : var := mkVar "small_stress" TSymmetric (zeros 6).
Lemma nodup_prefix : forall p m, distinct m -> NoDup (map fst (decls p (ss :: order m))).
Proof.
  intros p m H. rewrite names_decls. apply FinFun.Injective_map_NoDup; [intros a b; apply append_inj|]. cbn [map v_name ss].
  eapply Permutation_NoDup; [|exact H]. apply perm_skip, Permutation_map, order_slots.
Qed.
Lemma pop_hist_build : forall m p, no_regime m \/ p = "" -> distinct m -> pop_hist m p hempty = HOk (build (decls p (ss :: order m)) (blanks (ss :: order m))).
Proof.
  intros m p R N. pose proof (nodup_prefix p m N) as NP. unfold pop_hist, pop_static. cbn [hcontains HistModel.find hloc hempty].
  change hempty with (build [] []). rewrite add_build; [|intros []|reflexivity]. cbn [hbind app].
  rewrite pop_build.
  - cbn [decls map ss v_name v_type app]. unfold blanks, sizes. cbn. reflexivity.
  - destruct R as [R| ->]; [now left|right]. split; [reflexivity|]. now left.
  - exact NP.
  - reflexivity.
Qed.
Lemma sizes_perm : forall a b, Permutation a b -> sizes a = sizes b.
Proof.
  assert (S : forall v l, sizes (v :: l) = (ssize (v_type v) + sizes l)%nat) by reflexivity.
  intros a b H. induction H; [reflexivity|rewrite !S; lia|rewrite !S; lia|congruence].
Qed.
Lemma nstore_spec : forall m, distinct m -> nstore m = HOk (6 + sizes (slots m))%nat.
Proof.
  intros m N. unfold nstore, size_of. rewrite pop_hist_build by auto. cbn [hbind]. unfold hsize, build. cbn [hdata]. rewrite blanks_length. rewrite (sizes_perm _ _ (order_slots m)). reflexivity.
Qed.
Lemma names_spec : forall m, distinct m -> names_of m = HOk ("small_stress" :: map v_name (order m)).
Proof.
  intros m N. unfold names_of. rewrite pop_hist_build by auto. cbn [hbind]. unfold build. cbn [horder]. rewrite names_decls. cbn [map ss v_name]. f_equal. f_equal. rewrite map_map. apply map_ext. reflexivity.
Qed.
(** state alone *)
Lemma nstate_spec : forall m, no_regime m -> distinct m -> nstate m = HOk (sizes (slots m)).
Proof.
  intros m R N. unfold nstate, size_of. change hempty with (build [] []). rewrite pop_build; [|now left| |reflexivity].
  - cbn [hbind app]. unfold hsize, build. cbn [hdata]. now rewrite blanks_length, (sizes_perm _ _ (order_slots m)).
  - pose proof (nodup_prefix "" m N) as H. cbn [decls map ss] in H. cbn [app]. unfold decls. now inversion H.
Qed.
Fixpoint stem (m : smodel) : smodel := match m with SRegime m _ => stem m | _ => m end.
(** ** Initial values *)
Definition vals (l : list var) : list cell := concat (map (fun v => cells (v_init v)) l).
Definition fits (l : list var) : Prop := List.Forall (fun v => length (v_init v) = ssize (v_type v)) l.
Lemma cells_length : forall l, length (cells l) = length l. Proof. intro. apply map_length. Qed.
Lemma vals_length : forall l, fits l -> length (vals l) = sizes l.
Proof. induction 1 as [|v l H F IH]; [reflexivity|]. unfold vals, sizes in *. cbn. rewrite app_length, cells_length, IH, H. reflexivity. Qed.
Lemma vals_app : forall a b, vals (a ++ b) = vals a ++ vals b. Proof. intros. unfold vals. now rewrite map_app, concat_app. Qed.
Lemma split_len : forall A (d : list A) n m, length d = (n + m)%nat -> exists a b, d = a ++ b /\ length a = n /\ length b = m.
Proof. intros A d n m H. exists (firstn n d), (skipn n d). rewrite firstn_skipn, firstn_length, skipn_length. split; [reflexivity|lia]. Qed.
Lemma set_vars_build : forall p l A B dA d dB, fits l -> NoDup (map fst (A ++ decls p l ++ B)) -> length dA = dsize A -> length d = sizes l ->
  set_vars p l (build (A ++ decls p l ++ B) (dA ++ d ++ dB)) = HOk (build (A ++ decls p l ++ B) (dA ++ vals l ++ dB)).
Proof.
  induction l as [|v l IH]; intros A B dA d dB F N LA LD.
  - cbn. destruct d; [reflexivity|discriminate].
  - inversion F as [|? ? FV FL]; subst. cbn [set_vars decls map app]. unfold sizes in LD. cbn in LD. destruct (split_len _ d _ _ LD) as (d1 & d2 & -> & L1 & L2).
    cbn [decls map app] in N. rewrite map_app in N. cbn in N. pose proof (NoDup_mid _ _ _ _ N) as (NI & _). rewrite <- app_assoc.
    rewrite set_build; [|exact NI|exact LA|exact L1|rewrite cells_length; exact FV]. cbn [hbind].
    rewrite (app_cons _ A). rewrite (app_assoc dA). rewrite IH.
    + unfold vals. cbn [map concat]. rewrite <- !app_assoc. reflexivity.
    + exact FL.
    + rewrite <- app_cons, map_app. exact N.
    + rewrite app_length, cells_length, dsize_app, LA, FV. unfold dsize. cbn. lia.
    + exact L2.
Qed.
Lemma fits_order : forall m, well_formed m -> fits (order m).
Proof.
  induction m as [own|q IH|d0 b IH|m IH ms]; intro W; cbn in *; [exact W| | |now apply IH].
  - apply Forall_app. split; [now apply IH|]. constructor; [reflexivity|constructor].
  - constructor; [reflexivity|now apply IH].
Qed.
Lemma NoDup_app_l : forall A (a b : list A), NoDup (a ++ b) -> NoDup a.
Proof. induction a as [|x a IH]; intros b H; [constructor|]. inversion H as [|? ? N H']; subst. constructor; [intro I; apply N, in_or_app; now left|now apply IH in H']. Qed.
Lemma init_build : forall m p A B dA d dB, no_regime m -> well_formed m -> NoDup (map fst (A ++ decls p (order m) ++ B)) -> length dA = dsize A -> length d = sizes (order m) ->
  init_state m p (build (A ++ decls p (order m) ++ B) (dA ++ d ++ dB)) = HOk (build (A ++ decls p (order m) ++ B) (dA ++ vals (order m) ++ dB)).
Proof.
  induction m as [own|q IH|d0 b IH|m IH ms]; intros p A B dA d dB R W N LA LD; cbn [init_state order] in *.
  - now apply set_vars_build.
  - rewrite decls_app, <- app_assoc in *. assert (LD' := LD). unfold sizes in LD'. rewrite map_app, list_sum_app in LD'. destruct (split_len _ d _ _ LD') as (d1 & d2 & -> & L1 & L2).
    cbn [decls map app v_name v_type] in *. rewrite <- app_assoc.
    assert (E : forall d3 d4 : list cell, (d1 ++ d3 ++ d4) = d1 ++ d3 ++ d4) by reflexivity.
    assert (NI : ~ In (p ++ "plastic_strain")%string (map fst (A ++ decls p (order q)))).
    { rewrite app_assoc, map_app in N. cbn in N. now apply NoDup_mid in N. }
    rewrite (app_assoc A), (app_assoc dA). rewrite set_build; [|exact NI| |exact L2|reflexivity].
    + cbn [hbind]. rewrite <- !app_assoc. rewrite IH; [|exact R|exact W|exact N|exact LA|exact L1].
      rewrite vals_app, <- !app_assoc. unfold vals at 3. cbn [map concat v_init]. rewrite app_nil_r. reflexivity.
    + rewrite app_length, dsize_app, dsize_decls, LA, L1. reflexivity.
  - unfold sizes in LD. cbn in LD. destruct d as [|c d]; [discriminate|]. cbn [decls map app v_name v_type] in *. 
    assert (NI : ~ In (p ++ "damage")%string (map fst A)) by (rewrite map_app in N; cbn in N; now apply NoDup_mid in N).
    change (dA ++ c :: d ++ dB) with (dA ++ [c] ++ (d ++ dB)). rewrite set_build; [|exact NI|exact LA|reflexivity|reflexivity]. cbn [hbind].
    rewrite (app_cons _ A) in *. rewrite (app_assoc dA). rewrite IH; [|exact R|exact W|exact N| |injection LD as LD; exact LD].
    + rewrite <- !app_assoc. reflexivity.
    + rewrite app_length, cells_length, dsize_app, LA. unfold dsize. cbn. reflexivity.
  - destruct R.
Qed.
Lemma zero_build : forall L d, hzero (build L d) = build L (cells (zeros (length d))).
Proof. intros. unfold hzero, build, cells, zeros. cbn. f_equal. induction d; [reflexivity|]. cbn. now rewrite IHd. Qed.
Lemma cells_zeros_app : forall n m, cells (zeros (n + m)) = cells (zeros n) ++ cells (zeros m).
Proof. intros. unfold cells, zeros. now rewrite repeat_app, map_app. Qed.
(** init_static and init_hist *)
Lemma static_build : forall p l d, length d = sizes (ss :: l) ->
  init_static p (hzero (build (decls p (ss :: l)) d)) = HOk (build (decls p (ss :: l)) (cells (zeros 6) ++ cells (zeros (sizes l)))).
Proof.
  intros p l d H. rewrite zero_build, H. change (sizes (ss :: l)) with (6 + sizes l)%nat. rewrite cells_zeros_app. unfold init_static.
  exact (set_build [] (p ++ "small_stress")%string TSymmetric (decls p l) [] (cells (zeros 6)) (cells (zeros 6)) (cells (zeros (sizes l))) (fun x => x) eq_refl eq_refl eq_refl).
Qed.
Lemma hist_build : forall m p d, no_regime m -> well_formed m -> distinct m -> length d = sizes (ss :: order m) ->
  init_hist m p (build (decls p (ss :: order m)) d) = HOk (build (decls p (ss :: order m)) (cells (zeros 6) ++ vals (order m))).
Proof.
  intros m p d R W N L. pose proof (nodup_prefix p m N) as NP. unfold init_hist. rewrite static_build by exact L. cbn [hbind].
  pose proof (init_build m p [((p ++ "small_stress")%string, TSymmetric)] [] (cells (zeros 6)) (cells (zeros (sizes (order m)))) [] R W) as I. rewrite !app_nil_r in I.
  apply I; [exact NP|reflexivity|]. rewrite cells_length. apply repeat_length.
Qed.
Lemma store_build : forall m p, no_regime m -> well_formed m -> distinct m -> init_store m p = HOk (build (decls p (ss :: order m)) (cells (zeros 6) ++ vals (order m))).
Proof. intros m p R W N. unfold init_store. rewrite pop_hist_build by auto. cbn [hbind]. apply hist_build; auto. apply blanks_length. Qed.
Lemma regime_store : forall m ms, no_regime m -> well_formed m -> distinct m -> init_store (SRegime m ms) "" = init_store m "".
Proof.
  intros m ms R W N. rewrite (store_build m "" R W N). unfold init_store. rewrite pop_hist_build by auto. cbn [order hbind].
  change (hbind (init_static "" (hzero (build (decls "" (ss :: order m)) (blanks (ss :: order m))))) (init_hist m "") = HOk (build (decls "" (ss :: order m)) (cells (zeros 6) ++ vals (order m)))).
  rewrite static_build by apply blanks_length. cbn [hbind]. apply hist_build; auto. rewrite app_length, !cells_length. unfold zeros. now rewrite !repeat_length.
Qed.
(** a regime model of regime-free models *)
Definition top_regime (m : smodel) : Prop := match m with SRegime f _ => no_regime f | _ => no_regime m end.
Lemma top_store : forall m, top_regime m -> well_formed m -> distinct m -> init_store m "" = HOk (build (decls "" (ss :: order m)) (cells (zeros 6) ++ vals (order m))).
Proof. intros [own|q|d0 b|m ms] R W N; try now apply store_build. rewrite regime_store by assumption. exact (store_build m "" R W N). Qed.
(** ** When the two orders agree *)
Lemma order_creep : forall m, creep_on_stateless m -> order m = slots m.
Proof.
  induction m as [own|q IH|d0 b IH|m IH ms]; cbn; intro C; [reflexivity| |now rewrite IH|now apply IH]. destruct C as (E & C). rewrite (IH C), E. reflexivity.
Qed.
Lemma found_vals : forall l r, fits l -> found l (vals l ++ r) = map (fun v => cells (v_init v)) l.
Proof.
  induction l as [|v l IH]; intros r F; [reflexivity|]. inversion F as [|? ? FV FL]; subst. unfold vals. cbn [found map concat]. fold (vals l). rewrite <- app_assoc.
  assert (L : length (cells (v_init v)) = ssize (v_type v)) by (rewrite cells_length; exact FV). rewrite <- L.
  rewrite firstn_app, Nat.sub_diag, firstn_all, firstn_O, app_nil_r, skipn_app, Nat.sub_diag, skipn_all, skipn_O. cbn [app]. now rewrite IH.
Qed.
(** ** The properties *)
Lemma start_right : forall m p, no_regime m -> well_formed m -> distinct m -> creep_on_stateless m -> exists h, init_store m p = HOk h /\ length (hdata h) = (6 + sizes (slots m))%nat
  /\ firstn nstatic (hdata h) = cells (zeros 6) /\ right_start m (hdata h) /\ horder h = map (append p) ("small_stress" :: map v_name (slots m)).
Proof.
  intros m p R W N C. eexists. split; [now apply store_build|]. unfold build. cbn [hdata horder]. rewrite (order_creep m C). pose proof (fits_order m W) as F. rewrite (order_creep m C) in F. repeat split.
  - rewrite app_length, vals_length by exact F. reflexivity.
  - unfold right_start, seen. change (skipn nstatic (cells (zeros 6) ++ vals (slots m))) with (vals (slots m)). rewrite <- (app_nil_r (vals (slots m))). now apply found_vals.
  - rewrite names_decls. reflexivity.
Qed.
Lemma start_right_top : forall m, top_regime m -> well_formed m -> distinct m -> creep_on_stateless m -> exists h, init_store m "" = HOk h /\ length (hdata h) = (6 + sizes (slots m))%nat
  /\ firstn nstatic (hdata h) = cells (zeros 6) /\ right_start m (hdata h) /\ horder h = "small_stress" :: map v_name (slots m).
Proof.
  intros m R W N C. eexists. split; [now apply top_store|]. unfold build. cbn [hdata horder]. rewrite (order_creep m C). pose proof (fits_order m W) as F. rewrite (order_creep m C) in F. repeat split.
  - rewrite app_length, vals_length by exact F. reflexivity.
  - unfold right_start, seen. change (skipn nstatic (cells (zeros 6) ++ vals (slots m))) with (vals (slots m)). rewrite <- (app_nil_r (vals (slots m))). now apply found_vals.
  - rewrite names_decls. cbn [map ss v_name]. f_equal. rewrite map_map. apply map_ext. reflexivity.
Qed.
(** zero initial values *)
Definition all_zero (m : smodel) : Prop := List.Forall (fun v => v_init v = zeros (ssize (v_type v))) (slots m).
Lemma vals_zero : forall l, List.Forall (fun v => v_init v = zeros (ssize (v_type v))) l -> vals l = cells (zeros (sizes l)).
Proof.
  induction 1 as [|v l H F IH]; [reflexivity|]. unfold vals, sizes. cbn [map concat list_sum fold_right]. fold (vals l). change (fold_right Nat.add 0%nat) with list_sum. fold (sizes l). rewrite cells_zeros_app, IH, H. reflexivity.
Qed.
Lemma start_zero : forall m, top_regime m -> well_formed m -> distinct m -> all_zero m -> exists h, init_store m "" = HOk h /\ right_start m (hdata h).
Proof.
  intros m R W N Z. eexists. split; [now apply top_store|]. unfold build. cbn [hdata]. unfold right_start, seen. change (skipn nstatic (cells (zeros 6) ++ vals (order m))) with (vals (order m)).
  rewrite vals_zero by (eapply Permutation_Forall; [apply order_slots|exact Z]). rewrite <- (sizes_perm _ _ (order_slots m)), <- vals_zero by exact Z. rewrite <- (app_nil_r (vals (slots m))). apply found_vals.
  eapply Permutation_Forall; [apply Permutation_sym, order_slots|now apply fits_order].
Qed.
(** counts *)
Lemma distinct_sub : forall v m m', slots m = v :: slots m' -> distinct m -> distinct m'.
Proof. intros v m m' E N. unfold distinct in *. rewrite E in N. cbn [map] in N. inversion N as [|? ? A B]; subst. inversion B; subst. constructor; [|assumption]. intro I. apply A. now right. Qed.
Lemma reads_spec : forall m k, no_regime m -> distinct m -> nreads k m = HOk (sizes (slots m)).
Proof.
  intros [own|q|d0 b|m ms] k R N; cbn [nreads].
  - now apply nstate_spec.
  - rewrite nstate_spec; [reflexivity|exact R|]. eapply distinct_sub; [|exact N]. reflexivity.
  - rewrite nstate_spec; [reflexivity|exact R|]. eapply distinct_sub; [|exact N]. reflexivity.
  - destruct R.
Qed.
Lemma reads_top : forall f ms k, no_regime f -> distinct f -> List.Forall (fun m => no_regime m /\ distinct m /\ sizes (slots m) = sizes (slots f)) ms -> (k <= length ms)%nat ->
  exists n, nreads k (SRegime f ms) = HOk n /\ nstore (SRegime f ms) = HOk (nstatic + n)%nat.
Proof.
  intros f ms k R N F K. exists (sizes (slots f)). split.
  - cbn [nreads]. destruct k as [|k]; [now apply reads_spec|]. destruct (nth_error ms k) as [x|] eqn:E; [|apply nth_error_None in E; lia].
    apply nth_error_In in E. rewrite Forall_forall in F. destruct (F x E) as (RX & NX & EX). now rewrite nstate_spec, EX.
  - rewrite nstore_spec by exact N. reflexivity.
Qed.
(** damage *)
Lemma damage_read : forall d0 b store, distinct (SDamage d0 b) -> get_damage (SDamage d0 b) "" store = HOk (hd [] (seen (SDamage d0 b) store)).
Proof.
  intros d0 b store N. unfold get_damage. rewrite pop_hist_build by auto. cbn [hbind]. unfold hget.
  pose proof (lookup_build [("small_stress", TSymmetric)] "damage" TScalar (decls "" (order b)) store) as L. unfold build in L |- *. cbn [horder hloc htype] in *.
  change ("" ++ "damage")%string with "damage".
  change (decls "" (ss :: order (SDamage d0 b))) with ([("small_stress", TSymmetric)] ++ ("damage", TScalar) :: decls "" (order b)).
  rewrite L by (intros [E|[]]; discriminate). reflexivity.
Qed.
(** after the prefix of the model is changed *)
Lemma damage_prefix : forall d0 b p store, p <> "" -> (forall v, In v (slots b) -> v_name v <> (p ++ "damage")%string) -> (p ++ "damage")%string <> "small_stress" -> distinct (SDamage d0 b) ->
  get_damage (SDamage d0 b) p store = HErr ENotExists.
Proof.
  intros d0 b p store P V S N. unfold get_damage. rewrite pop_hist_build by auto. cbn [hbind]. unfold hget, hlookup, build. cbn [hloc htype].
  rewrite find_none; [reflexivity|]. rewrite locs_fst, names_decls. cbn [map ss v_name order]. intros [E|[E|E]].
  - cbn in E. congruence.
  - apply P. change ("" ++ "damage")%string with "damage" in E. destruct p as [|c p]; [reflexivity|]. exfalso. apply (f_equal String.length) in E. rewrite !String_length_append in E || idtac. cbn in E.
    assert (G : forall a b, String.length (a ++ b)%string = (String.length a + String.length b)%nat) by (induction a as [|x a IH]; intro; cbn; [reflexivity|now rewrite IH]). rewrite G in E. cbn in E. lia.
  - apply in_map_iff in E as (n & E & I). apply in_map_iff in I as (v & EV & I). apply (V v); [|now rewrite EV].
    eapply Permutation_in; [apply Permutation_sym, order_slots|exact I].
Qed.
