(** Proofs about the History model. *)
From Coq Require Import String Permutation.
From Verif Require Import Base.
From Verif Require Import HistModel.
From Verif Require Import HistSpec.

Notation lay := (list (string * stype)).

Fixpoint off (n : string) (l : lay) : option nat :=
  match l with
  | [] => None
  | (k, t) :: r => if String.eqb n k then Some 0%nat else option_map (Nat.add (ssize t)) (off n r)
  end.

Record rep (l : lay) (h : hist) : Prop := {
  rep_order : horder h = map fst l;
  rep_nodup : NoDup (map fst l);
  rep_type : forall n, find n (htype h) = find n l;
  rep_loc : forall n, find n (hloc h) = off n l;
  rep_size : length (hdata h) = total l }.

(** ** Maps *)
Lemma find_In : forall A (m : amap A) k v, find k m = Some v -> In (k, v) m.
Proof.
  induction m as [|[k' v'] r IH]; simpl; intros k v H; [discriminate|].
  destruct (String.eqb_spec k k'); [left; congruence | right; auto].
Qed.
Lemma In_find : forall A (m : amap A) k v, NoDup (map fst m) -> In (k, v) m -> find k m = Some v.
Proof.
  induction m as [|[k' v'] r IH]; simpl; intros k v Hn H; [tauto|].
  inversion Hn as [|? ? Hni Hnd]; subst.
  destruct (String.eqb_spec k k') as [E|E].
  - destruct H as [H|H]; [congruence|]. subst. exfalso. apply Hni. apply (in_map fst) in H. exact H.
  - destruct H as [H|H]; [congruence|]. apply IH; auto.
Qed.
Lemma find_app : forall A (m m' : amap A) k,
  find k (m ++ m') = match find k m with Some v => Some v | None => find k m' end.
Proof.
  induction m as [|[k' v'] r IH]; simpl; intros m' k; [reflexivity|].
  destruct (String.eqb k k'); [reflexivity | apply IH].
Qed.
Lemma find_none_iff : forall A (m : amap A) k, find k m = None <-> ~ In k (map fst m).
Proof.
  induction m as [|[k' v'] r IH]; simpl; intros k; [tauto|].
  destruct (String.eqb_spec k k') as [E|E].
  - split; [discriminate | intros H; exfalso; apply H; left; auto].
  - rewrite IH. split; [intros H [H'|H']; [congruence | tauto] | tauto].
Qed.
Lemma find_insert : forall A (m : amap A) k v j,
  find j (insert k v m) = match find j m with Some x => Some x | None => if String.eqb j k then Some v else None end.
Proof.
  intros A m k v j. unfold insert. destruct (find k m) as [x|] eqn:E.
  - destruct (find j m) eqn:Ej; [reflexivity|].
    destruct (String.eqb_spec j k); [congruence | reflexivity].
  - rewrite find_app. simpl. reflexivity.
Qed.
Lemma find_insert_all : forall A (src m : amap A) j,
  find j (insert_all src m) = match find j m with Some x => Some x | None => find j src end.
Proof.
  unfold insert_all.
  induction src as [|[k v] r IH]; simpl; intros m j.
  - destruct (find j m); reflexivity.
  - rewrite IH, find_insert. simpl. destruct (find j m); [reflexivity|].
    destruct (String.eqb j k); reflexivity.
Qed.
Lemma find_add_at : forall m k inc j,
  find j (add_at k inc m) =
  if String.eqb j k then Some (match find k m with Some v => v + inc | None => inc end)%nat else find j m.
Proof.
  induction m as [|[k' v'] r IH]; simpl; intros k inc j.
  - reflexivity.
  - destruct (String.eqb_spec k k') as [E|E]; simpl.
    + subst. destruct (String.eqb_spec j k'); reflexivity.
    + rewrite IH. destruct (String.eqb_spec j k'); [|reflexivity].
      subst. destruct (String.eqb_spec k' k); [congruence | reflexivity].
Qed.
Lemma find_add_all : forall names m inc j, NoDup names ->
  find j (fold_left (fun m v => add_at v inc m) names m) =
  if mem j names then Some (match find j m with Some v => v + inc | None => inc end)%nat else find j m.
Proof.
  induction names as [|n r IH]; simpl; intros m inc j Hn; [reflexivity|].
  inversion Hn as [|? ? Hni Hnd]; subst. rewrite IH by assumption. rewrite !find_add_at.
  unfold mem; simpl. destruct (String.eqb_spec j n) as [E|E]; simpl.
  - subst. destruct (existsb (String.eqb n) r) eqn:Ex; [|reflexivity].
    exfalso. apply existsb_exists in Ex. destruct Ex as [x [Hx Hx']].
    apply String.eqb_eq in Hx'. subst; auto.
  - reflexivity.
Qed.
Lemma mem_In : forall n l, mem n l = true <-> In n l.
Proof.
  intros n l. unfold mem. rewrite existsb_exists. split.
  - intros [x [H1 H2]]. apply String.eqb_eq in H2. subst; auto.
  - intros H. exists n. rewrite String.eqb_refl. auto.
Qed.

Lemma NoDup_snoc : forall (l : list string) x, NoDup l -> ~ In x l -> NoDup (l ++ [x]).
Proof.
  induction l as [|y l IH]; simpl; intros x H1 H2; [constructor; auto; constructor|].
  inversion H1 as [|? ? Hy Hl]; subst. constructor.
  - rewrite in_app_iff. simpl. intros [H|[H|[]]]; [auto | subst; tauto].
  - apply IH; [assumption | tauto].
Qed.

(** ** Offsets *)
Lemma off_app : forall l l' n,
  off n (l ++ l') = match off n l with Some o => Some o | None => option_map (Nat.add (total l)) (off n l') end.
Proof.
  induction l as [|[k t] r IH]; simpl; intros l' n.
  - destruct (off n l'); reflexivity.
  - destruct (String.eqb n k); [reflexivity|]. rewrite IH.
    destruct (off n r); simpl; [reflexivity|]. destruct (off n l'); simpl; [f_equal; lia | reflexivity].
Qed.
Lemma total_app : forall l l', total (l ++ l') = (total l + total l')%nat.
Proof. induction l as [|[k t] r IH]; simpl; intros; [reflexivity | rewrite IH; lia]. Qed.
Lemma off_find : forall l n, (off n l = None <-> find n l = None).
Proof.
  induction l as [|[k t] r IH]; simpl; intros n; [tauto|].
  destruct (String.eqb n k); [split; discriminate|].
  rewrite <- IH. destruct (off n r); simpl; split; congruence.
Qed.
Lemma off_bound : forall l n o t, off n l = Some o -> find n l = Some t -> (o + ssize t <= total l)%nat.
Proof.
  induction l as [|[k t] r IH]; simpl; intros n o t' Ho Ht; [discriminate|].
  destruct (String.eqb n k).
  - inversion Ho; inversion Ht; subst. lia.
  - destruct (off n r) as [o'|] eqn:E; simpl in Ho; [|discriminate].
    inversion Ho; subst. specialize (IH _ _ _ E Ht). lia.
Qed.
Lemma off_disjoint : forall l n1 n2 o1 o2 t1 t2, n1 <> n2 ->
  off n1 l = Some o1 -> off n2 l = Some o2 -> find n1 l = Some t1 -> find n2 l = Some t2 ->
  (o1 + ssize t1 <= o2 \/ o2 + ssize t2 <= o1)%nat.
Proof.
  induction l as [|[k t] r IH]; simpl; intros n1 n2 o1 o2 t1 t2 Hn H1 H2 T1 T2; [discriminate|].
  destruct (String.eqb_spec n1 k) as [E1|E1]; destruct (String.eqb_spec n2 k) as [E2|E2]; subst.
  - congruence.
  - destruct (off n2 r); simpl in H2; inversion H2; inversion H1; inversion T1; subst. left; lia.
  - destruct (off n1 r); simpl in H1; inversion H2; inversion H1; inversion T2; subst. right; lia.
  - destruct (off n1 r) eqn:F1; destruct (off n2 r) eqn:F2; simpl in *; try discriminate.
    inversion H1; inversion H2; subst.
    destruct (IH _ _ _ _ _ _ Hn F1 F2 T1 T2); lia.
Qed.
Lemma ssize_pos : forall t, (0 < ssize t)%nat.
Proof. destruct t; simpl; lia. Qed.
(** every cell belongs to a variable *)
Lemma off_cover : forall l i, NoDup (map fst l) -> (i < total l)%nat ->
  exists n o t, off n l = Some o /\ find n l = Some t /\ (o <= i < o + ssize t)%nat.
Proof.
  induction l as [|[k t] r IH]; simpl; intros i Hn H; [lia|].
  inversion Hn as [|? ? Hni Hnd]; subst.
  destruct (Nat.lt_ge_cases i (ssize t)) as [E|E].
  - exists k, 0%nat, t. rewrite String.eqb_refl. repeat split; lia.
  - destruct (IH (i - ssize t)%nat Hnd) as [n [o [t' [H1 [H2 H3]]]]]; [lia|].
    exists n, (ssize t + o)%nat, t'.
    destruct (String.eqb_spec n k) as [->|Hk].
    + exfalso. apply Hni. apply find_In in H2. apply (in_map fst) in H2. exact H2.
    + rewrite H1. simpl. repeat split; auto; lia.
Qed.

(** ** Slices *)
Lemma overwrite_length : forall A o (vs d : list A), (o + length vs <= length d)%nat ->
  length (overwrite o vs d) = length d.
Proof.
  intros. unfold overwrite. rewrite !app_length, firstn_length, skipn_length. lia.
Qed.
Lemma nth_overwrite : forall A o (vs d : list A) i, (o + length vs <= length d)%nat ->
  nth_error (overwrite o vs d) i =
  if (Nat.leb o i && Nat.ltb i (o + length vs))%bool then nth_error vs (i - o) else nth_error d i.
Proof.
  intros A o vs d i H. unfold overwrite.
  assert (Hl : length (firstn o d) = o) by (rewrite firstn_length; lia).
  destruct (Nat.leb_spec o i) as [E|E]; simpl.
  - rewrite nth_error_app2 by lia. rewrite Hl.
    destruct (Nat.ltb_spec i (o + length vs)) as [F|F].
    + rewrite nth_error_app1 by lia. reflexivity.
    + rewrite nth_error_app2 by lia.
      rewrite <- (firstn_skipn (o + length vs) d) at 2.
      rewrite (nth_error_app2 (firstn (o + length vs) d)) by (rewrite firstn_length; lia).
      f_equal. rewrite firstn_length. lia.
  - rewrite nth_error_app1 by lia.
    rewrite <- (firstn_skipn o d) at 2. rewrite nth_error_app1 by lia. reflexivity.
Qed.
Lemma nth_slice : forall A o n (d : list A) i,
  nth_error (slice o n d) i = if Nat.ltb i n then nth_error d (o + i) else None.
Proof.
  intros A o n d i. unfold slice.
  assert (E : forall (k : nat) (l : list A) j, nth_error (skipn k l) j = nth_error l (k + j)).
  { induction k as [|k IH]; intros [|x l] j; simpl; auto. destruct j; reflexivity. }
  assert (F : forall (k : nat) (l : list A) j, nth_error (firstn k l) j = if Nat.ltb j k then nth_error l j else None).
  { induction k as [|k IH]; intros l j.
    - destruct j; reflexivity.
    - destruct l as [|x l]; destruct j as [|j]; simpl; try reflexivity.
      + destruct (Nat.ltb (S j) (S k)); reflexivity.
      + rewrite IH. reflexivity. }
  rewrite F, E. reflexivity.
Qed.
Lemma slice_length : forall A o n (d : list A), (o + n <= length d)%nat -> length (slice o n d) = n.
Proof. intros. unfold slice. rewrite firstn_length, skipn_length. lia. Qed.
Lemma list_ext : forall A (a b : list A), (forall i, nth_error a i = nth_error b i) -> a = b.
Proof.
  induction a as [|x a IH]; intros [|y b] H.
  - reflexivity.
  - specialize (H 0%nat). discriminate.
  - specialize (H 0%nat). discriminate.
  - pose proof (H 0%nat) as H0. simpl in H0. inversion H0. f_equal. apply IH.
    intros i. exact (H (S i)).
Qed.
Lemma slice_overwrite_same : forall A o (vs d : list A), (o + length vs <= length d)%nat ->
  slice o (length vs) (overwrite o vs d) = vs.
Proof.
  intros A o vs d H. apply list_ext. intros i. rewrite nth_slice.
  destruct (Nat.ltb_spec i (length vs)) as [E|E].
  - rewrite nth_overwrite by assumption.
    replace (Nat.leb o (o + i)) with true by (symmetry; apply Nat.leb_le; lia).
    replace (Nat.ltb (o + i) (o + length vs)) with true by (symmetry; apply Nat.ltb_lt; lia).
    simpl. f_equal. lia.
  - symmetry. apply nth_error_None. lia.
Qed.
Lemma slice_overwrite_other : forall A o (vs d : list A) o' n, (o + length vs <= length d)%nat ->
  (o' + n <= o \/ o + length vs <= o')%nat ->
  slice o' n (overwrite o vs d) = slice o' n d.
Proof.
  intros A o vs d o' n H Hd. apply list_ext. intros i. rewrite !nth_slice.
  destruct (Nat.ltb_spec i n) as [E|E]; [|reflexivity].
  rewrite nth_overwrite by assumption.
  destruct (Nat.leb_spec o (o' + i)); destruct (Nat.ltb_spec (o' + i) (o + length vs)); simpl; try reflexivity; lia.
Qed.
Lemma slice_app1 : forall A o n (d e : list A), (o + n <= length d)%nat -> slice o n (d ++ e) = slice o n d.
Proof.
  intros. apply list_ext. intros i. rewrite !nth_slice. destruct (Nat.ltb_spec i n); [|reflexivity].
  apply nth_error_app1. lia.
Qed.
Lemma slice_app2 : forall A o n (d e : list A), slice (length d + o) n (d ++ e) = slice o n e.
Proof.
  intros. apply list_ext. intros i. rewrite !nth_slice. destruct (Nat.ltb_spec i n); [|reflexivity].
  rewrite nth_error_app2 by lia. f_equal. lia.
Qed.
Lemma slice_slice : forall A o n o' n' (d : list A), (o' + n' <= n)%nat ->
  slice o' n' (slice o n d) = slice (o + o') n' d.
Proof.
  intros. apply list_ext. intros i. rewrite !nth_slice. destruct (Nat.ltb_spec i n'); [|reflexivity].
  destruct (Nat.ltb_spec (o' + i) n); [f_equal; lia | lia].
Qed.
Lemma slice_map : forall A B (f : A -> B) o n d, slice o n (map f d) = map f (slice o n d).
Proof. intros. unfold slice. rewrite skipn_map, firstn_map. reflexivity. Qed.

Lemma stype_eqb_eq : forall a b, stype_eqb a b = true <-> a = b.
Proof. intros a b; destruct a, b; simpl; split; congruence. Qed.
Lemma stype_eqb_refl : forall a, stype_eqb a a = true.
Proof. destruct a; reflexivity. Qed.

(** ** Lookup in a represented history *)
Lemma rep_lookup : forall l h t n, rep l h ->
  hlookup t n h =
  match find n l with
  | None => HErr ENotExists
  | Some t' => if stype_eqb t t' then
      match off n l with Some o => HOk o | None => HErr ENotExists end else HErr EWrongType
  end.
Proof.
  intros l h t n H. unfold hlookup. rewrite (rep_loc l h H), (rep_type l h H).
  destruct (off n l) eqn:E.
  - destruct (find n l) eqn:F; [reflexivity|]. apply off_find in F. congruence.
  - apply off_find in E. rewrite E. reflexivity.
Qed.
Lemma rep_contains : forall l h n, rep l h -> hcontains n h = match find n l with Some _ => true | None => false end.
Proof.
  intros l h n H. unfold hcontains. rewrite (rep_loc l h H).
  destruct (off n l) eqn:E; destruct (find n l) eqn:F; try reflexivity.
  - apply off_find in F; congruence.
  - apply off_find in E; congruence.
Qed.
Lemma rep_get : forall l h t n, rep l h -> find n l = Some t ->
  exists o, off n l = Some o /\ hget t n h = HOk (slice o (ssize t) (hdata h)) /\ (o + ssize t <= length (hdata h))%nat.
Proof.
  intros l h t n H F. destruct (off n l) as [o|] eqn:E.
  - exists o. split; [reflexivity|]. unfold hget. rewrite (rep_lookup l h t n H), F, stype_eqb_refl, E. simpl.
    split; [reflexivity|]. rewrite (rep_size l h H). eapply off_bound; eauto.
  - apply off_find in E; congruence.
Qed.
Lemma rep_get_inv : forall l h t n vs, rep l h -> hget t n h = HOk vs ->
  exists o, find n l = Some t /\ off n l = Some o /\ vs = slice o (ssize t) (hdata h).
Proof.
  intros l h t n vs H G. unfold hget in G. rewrite (rep_lookup l h t n H) in G.
  destruct (find n l) as [t'|] eqn:F; [|discriminate].
  destruct (stype_eqb t t') eqn:Et; [|discriminate]. apply stype_eqb_eq in Et; subst t'.
  destruct (off n l) as [o|] eqn:E; [|discriminate].
  simpl in G. inversion G. exists o; auto.
Qed.

(** ** Each operation preserves representation *)
Lemma rep_empty : rep [] hempty.
Proof. constructor; simpl; auto. constructor. Qed.

Lemma rep_add : forall l h n t h', rep l h -> hadd n t h = HOk h' ->
  find n l = None /\ rep (l ++ [(n, t)]) h' /\ hdata h' = (hdata h ++ repeat None (ssize t))%list.
Proof.
  intros l h n t h' H A. unfold hadd in A. rewrite (rep_contains l h n H) in A.
  destruct (find n l) eqn:F; [discriminate|]. inversion A; subst h'; clear A.
  split; [reflexivity|]. split; [|reflexivity].
  destruct H as [Ho Hn Ht Hl Hs]. constructor; simpl.
  - rewrite Ho, map_app. reflexivity.
  - rewrite map_app. simpl. apply find_none_iff in F.
    apply NoDup_snoc; assumption.
  - intros m. rewrite find_insert, Ht, find_app. simpl. destruct (find m l); reflexivity.
  - intros m. rewrite find_insert, Hl, off_app. unfold hsize. rewrite Hs. simpl.
    destruct (off m l); [reflexivity|]. destruct (String.eqb m n); simpl; [f_equal; lia | reflexivity].
  - rewrite app_length, repeat_length, Hs, total_app. simpl. lia.
Qed.

Lemma rep_data : forall l h d, rep l h -> length d = length (hdata h) ->
  rep l (mkHist (horder h) (hloc h) (htype h) d).
Proof. intros l h d [Ho Hn Ht Hl Hs] Hd. constructor; simpl; auto. congruence. Qed.

Lemma rep_set : forall l h t n vs h', rep l h -> length vs = ssize t -> hset t n vs h = HOk h' ->
  exists o, find n l = Some t /\ off n l = Some o /\ rep l h' /\ hdata h' = overwrite o vs (hdata h) /\
    (o + length vs <= length (hdata h))%nat.
Proof.
  intros l h t n vs h' H Hv A. unfold hset in A. rewrite (rep_lookup l h t n H) in A.
  destruct (find n l) as [t'|] eqn:F; [|discriminate].
  destruct (stype_eqb t t') eqn:Et; [|discriminate]. apply stype_eqb_eq in Et; subst t'.
  destruct (off n l) as [o|] eqn:E; [|discriminate].
  simpl in A. inversion A; subst h'. exists o.
  assert (B : (o + length vs <= length (hdata h))%nat).
  { rewrite (rep_size l h H), Hv. eapply off_bound; eauto. }
  repeat (split; [auto|]); [|auto].
  apply rep_data; [assumption|]. apply overwrite_length. assumption.
Qed.

Lemma rep_deepcopy : forall l h, rep l h -> rep l (hdeepcopy h) /\ hdata (hdeepcopy h) = hdata h.
Proof.
  intros l h [Ho Hn Ht Hl Hs]. split; [|reflexivity]. constructor; simpl; auto.
  - intros n. rewrite find_insert_all. simpl. apply Ht.
  - intros n. rewrite find_insert_all. simpl. apply Hl.
Qed.

Lemma rep_plus : forall l h o h', rep l h -> hplus h o = HOk h' ->
  rep l h' /\ hdata h' = map (fun ab => cell_add (fst ab) (snd ab)) (combine (hdata h) (hdata o)) /\ hsize h = hsize o.
Proof.
  intros l h o h' H A. unfold hplus in A. destruct (Nat.eqb_spec (hsize h) (hsize o)) as [E|E]; [|discriminate].
  inversion A; subst h'. split; [|auto]. apply rep_data; [assumption|].
  rewrite map_length, combine_length. unfold hsize in E. lia.
Qed.

(** the layout of a list of names taken from [ls] *)
Definition picks (ls lx : lay) (names : list string) : Prop :=
  map fst lx = names /\ forall n t, In (n, t) lx -> find n ls = Some t.

Lemma rep_add_from : forall src ls names la acc h', rep ls src -> rep la acc ->
  add_from src names acc = HOk h' ->
  exists lx, picks ls lx names /\ rep (la ++ lx) h' /\ hdata h' = (hdata acc ++ repeat None (total lx))%list.
Proof.
  intros src ls names. induction names as [|n r IH]; simpl; intros la acc h' Hs Ha A.
  - inversion A; subst. exists []. rewrite !app_nil_r. split; [split; [reflexivity | intros n t []] | auto].
  - unfold htype_at in A. rewrite (rep_type ls src Hs) in A.
    destruct (find n ls) as [t|] eqn:F; [|discriminate]. simpl in A.
    destruct (hadd n t acc) as [a1|] eqn:E; [|discriminate]. simpl in A.
    destruct (rep_add la acc n t a1 Ha E) as [_ [H1 Hd]].
    destruct (IH _ _ _ Hs H1 A) as [lx [[Hp1 Hp2] [Hr Hdx]]].
    exists ((n, t) :: lx). split; [|split].
    + split; [simpl; congruence|]. intros m u [H|H]; [congruence | auto].
    + rewrite <- app_assoc in Hr. exact Hr.
    + rewrite Hdx, Hd. rewrite <- app_assoc. f_equal. simpl. rewrite repeat_app. reflexivity.
Qed.
Lemma add_from_ok : forall src ls names la acc, rep ls src -> rep la acc ->
  NoDup names -> (forall n, In n names -> find n ls <> None) -> (forall n, In n names -> find n la = None) ->
  exists h', add_from src names acc = HOk h'.
Proof.
  intros src ls names. induction names as [|n r IH]; simpl; intros la acc Hs Ha Hn Hin Hout; [eauto|].
  unfold htype_at. rewrite (rep_type ls src Hs).
  destruct (find n ls) as [t|] eqn:F; [|exfalso; eapply Hin; eauto]. simpl.
  inversion Hn as [|? ? Hni Hnd]; subst.
  destruct (hadd n t acc) as [a1|] eqn:E.
  - simpl. destruct (rep_add la acc n t a1 Ha E) as [_ [H1 Hd]].
    apply (IH (la ++ [(n, t)])%list); auto.
    intros m Hm. rewrite find_app, Hout by auto. simpl.
    destruct (String.eqb_spec m n); [congruence | reflexivity].
  - unfold hadd in E. rewrite (rep_contains la acc n Ha), Hout in E by auto. discriminate.
Qed.

Lemma picks_unique : forall ls lx lx' names, picks ls lx names -> picks ls lx' names -> lx = lx'.
Proof.
  intros ls lx lx' names [H1 H2] [H3 H4]. subst names.
  revert lx' H2 H3 H4. induction lx as [|[n t] r IH]; intros [|[n' t'] r'] H2 H3 H4; simpl in *; try discriminate.
  - reflexivity.
  - inversion H3; subst. f_equal.
    + f_equal. assert (find n ls = Some t) by auto. assert (find n ls = Some t') by auto. congruence.
    + apply IH; auto.
Qed.
Lemma picks_all : forall l, NoDup (map fst l) -> forall l1 lx l2, l = (l1 ++ lx ++ l2)%list -> picks l lx (map fst lx).
Proof.
  intros l Hn l1 lx l2 E. split; [reflexivity|]. intros n t H. apply In_find; [assumption|].
  subst l. apply in_or_app; right. apply in_or_app; left; auto.
Qed.
Lemma picks_filter : forall l f, NoDup (map fst l) ->
  picks l (filter (fun p => f (fst p)) l) (filter f (map fst l)).
Proof.
  intros l f Hn. split.
  - clear Hn. induction l as [|[n t] r IH]; simpl; [reflexivity|].
    destruct (f n); simpl; congruence.
  - intros n t H. apply filter_In in H. apply In_find; tauto.
Qed.
Lemma find_filter : forall A (l : amap A) f n,
  find n (filter (fun p => f (fst p)) l) = if f n then find n l else None.
Proof.
  induction l as [|[k t] r IH]; simpl; intros f n; [destruct (f n); reflexivity|].
  destruct (String.eqb_spec n k) as [->|E].
  - destruct (f k) eqn:Fk; simpl; [rewrite String.eqb_refl; reflexivity|].
    rewrite IH, Fk. reflexivity.
  - destruct (f k); simpl; [|apply IH].
    destruct (String.eqb_spec n k); [congruence | apply IH].
Qed.

Lemma rep_zero : forall l h, rep l h -> rep l (hzero h) /\ hdata (hzero h) = repeat (Some 0) (total l).
Proof.
  intros l h H. split.
  - apply rep_data; [assumption|]. apply map_length.
  - simpl. rewrite <- (rep_size l h H). induction (hdata h); simpl; congruence.
Qed.

Lemma rep_blank : forall l ex h, rep l h ->
  exists h', hcopy_blank ex h = HOk h' /\
    rep (filter (fun p => negb (mem (fst p) ex)) l) h' /\
    hdata h' = repeat (Some 0) (total (filter (fun p => negb (mem (fst p) ex)) l)).
Proof.
  intros l ex h H. unfold hcopy_blank.
  destruct (add_from_ok h l (filter (fun n => negb (mem n ex)) (horder h)) [] hempty H rep_empty) as [c Hc].
  - rewrite (rep_order l h H). apply NoDup_filter. apply (rep_nodup l h H).
  - intros n Hn E. apply find_none_iff in E. apply filter_In in Hn. rewrite (rep_order l h H) in Hn. tauto.
  - reflexivity.
  - rewrite Hc. simpl. exists (hzero c). split; [reflexivity|].
    destruct (rep_add_from h l _ [] hempty c H rep_empty Hc) as [lx [Hp [Hr _]]].
    rewrite (rep_order l h H) in Hp.
    rewrite (picks_unique l lx _ _ Hp (picks_filter l (fun n => negb (mem n ex)) (rep_nodup l h H))) in Hr.
    simpl in Hr. apply rep_zero in Hr. exact Hr.
Qed.

(** ** subset *)
Definition vals (ls : lay) (d : list cell) (lx : lay) : list cell :=
  flat_map (fun p => match off (fst p) ls with Some o => slice o (ssize (snd p)) d | None => [] end) lx.

Lemma vals_length : forall ls d lx names, length d = total ls -> picks ls lx names -> length (vals ls d lx) = total lx.
Proof.
  intros ls d lx names Hd [_ Hp]. induction lx as [|[n t] r IH]; [reflexivity|].
  unfold vals in *. simpl. assert (F : find n ls = Some t) by (apply Hp; left; auto).
  destruct (off n ls) as [o|] eqn:E; [|apply off_find in E; congruence].
  rewrite app_length, slice_length, IH; [reflexivity | intros; apply Hp; right; auto |].
  rewrite Hd. eapply off_bound; eauto.
Qed.
Lemma vals_slice : forall ls d lx names n t o, length d = total ls -> picks ls lx names ->
  find n lx = Some t -> off n lx = Some o ->
  exists o', off n ls = Some o' /\ slice o (ssize t) (vals ls d lx) = slice o' (ssize t) d.
Proof.
  intros ls d lx names n t o Hd Hp0. destruct Hp0 as [_ Hp]. revert o.
  induction lx as [|[k u] r IH]; simpl; intros o Ft Fo; [discriminate|].
  assert (F : find k ls = Some u) by (apply Hp; left; auto).
  unfold vals; simpl. destruct (off k ls) as [ok|] eqn:E; [|apply off_find in E; congruence].
  assert (B : (ok + ssize u <= length d)%nat) by (rewrite Hd; eapply off_bound; eauto).
  destruct (String.eqb_spec n k) as [->|En].
  - inversion Ft; inversion Fo; subst. exists ok. split; [assumption|].
    rewrite slice_app1 by (rewrite slice_length; lia).
    rewrite slice_slice by lia. f_equal. lia.
  - destruct (off n r) as [o1|] eqn:Eo; [|discriminate]. simpl in Fo. inversion Fo; subst o.
    destruct (IH (fun m s Hm => Hp m s (or_intror Hm)) _ Ft eq_refl) as [o' [H1 H2]].
    exists o'. split; [assumption|].
    rewrite <- H2. replace (ssize u) with (length (slice ok (ssize u) d)) at 1 by (apply slice_length; assumption).
    apply slice_app2.
Qed.

Lemma overwrite_tail : forall A (a b vs : list A), length b = length vs ->
  overwrite (length a) vs (a ++ b) = (a ++ vs)%list.
Proof.
  intros A a b vs H. unfold overwrite.
  rewrite firstn_app, firstn_all, Nat.sub_diag. simpl. rewrite app_nil_r.
  f_equal. rewrite skipn_all2 by (rewrite app_length; lia). apply app_nil_r.
Qed.

Lemma rep_subset_loop : forall h ls vars la acc h', rep ls h -> rep la acc ->
  subset_loop h vars acc = HOk h' ->
  exists lx, picks ls lx vars /\ rep (la ++ lx) h' /\ hdata h' = (hdata acc ++ vals ls (hdata h) lx)%list.
Proof.
  intros h ls vars. induction vars as [|v r IH]; intros la acc h' Hs Ha A; simpl in A.
  - inversion A; subst. exists []. rewrite !app_nil_r. split; [split; [reflexivity | intros n t []] | auto].
  - rewrite (rep_contains ls h v Hs) in A.
    destruct (find v ls) as [t|] eqn:F; [|discriminate].
    unfold htype_at in A. rewrite (rep_type ls h Hs), F in A. simpl in A.
    destruct (hadd v t acc) as [a1|] eqn:E; [|discriminate]. simpl in A.
    destruct (rep_add la acc v t a1 Ha E) as [Fa [H1 Hd]].
    unfold hloc_at in A. rewrite (rep_loc ls h Hs) in A.
    destruct (off v ls) as [o|] eqn:Eo; [|discriminate]. simpl in A.
    rewrite (rep_loc _ a1 H1), off_app in A.
    rewrite (proj2 (off_find la v) Fa) in A. simpl in A. rewrite String.eqb_refl in A. simpl in A.
    assert (B : (o + ssize t <= length (hdata h))%nat) by (rewrite (rep_size ls h Hs); eapply off_bound; eauto).
    rewrite Nat.add_0_r, <- (rep_size la acc Ha), Hd in A.
    rewrite overwrite_tail in A by (rewrite repeat_length, slice_length; auto).
    set (a2 := mkHist (horder a1) (hloc a1) (htype a1) (hdata acc ++ slice o (ssize t) (hdata h))) in *.
    assert (H2 : rep (la ++ [(v, t)]) a2).
    { apply rep_data; [assumption|]. rewrite Hd, !app_length, slice_length, repeat_length; auto. }
    destruct (IH _ _ _ Hs H2 A) as [lx [[Hp1 Hp2] [Hr Hdx]]].
    exists ((v, t) :: lx). split; [|split].
    + split; [simpl; congruence|]. intros m u [H|H]; [congruence | auto].
    + rewrite <- app_assoc in Hr. exact Hr.
    + rewrite Hdx. simpl. rewrite <- app_assoc. unfold vals. simpl. rewrite Eo. reflexivity.
Qed.
Lemma subset_loop_ok : forall h ls vars la acc, rep ls h -> rep la acc ->
  NoDup vars -> (forall n, In n vars -> find n ls <> None) -> (forall n, In n vars -> find n la = None) ->
  exists h', subset_loop h vars acc = HOk h'.
Proof.
  intros h ls vars. induction vars as [|v r IH]; intros la acc Hs Ha Hn Hin Hout; simpl; [eauto|].
  rewrite (rep_contains ls h v Hs). unfold htype_at. rewrite (rep_type ls h Hs).
  destruct (find v ls) as [t|] eqn:F; [|exfalso; eapply Hin; [left; reflexivity | assumption]]. simpl.
  inversion Hn as [|? ? Hni Hnd]; subst.
  destruct (hadd v t acc) as [a1|] eqn:E.
  - simpl. destruct (rep_add la acc v t a1 Ha E) as [Fa [H1 Hd]].
    unfold hloc_at. rewrite (rep_loc ls h Hs).
    destruct (off v ls) as [o|] eqn:Eo; [|apply off_find in Eo; congruence]. simpl.
    rewrite (rep_loc _ a1 H1), off_app.
    rewrite (proj2 (off_find la v) Fa). simpl. rewrite String.eqb_refl. simpl.
    assert (B : (o + ssize t <= length (hdata h))%nat) by (rewrite (rep_size ls h Hs); eapply off_bound; eauto).
    apply (IH (la ++ [(v, t)])%list); auto.
    + apply rep_data; [assumption|]. apply overwrite_length.
      rewrite Hd, app_length, repeat_length, slice_length, <- (rep_size la acc Ha) by assumption. lia.
    + intros n Hm. apply Hin. right; auto.
    + intros m Hm. rewrite find_app, Hout by (right; auto). simpl.
      destruct (String.eqb_spec m v); [congruence | reflexivity].
  - unfold hadd in E. rewrite (rep_contains la acc v Ha), Hout in E by (left; auto). discriminate.
Qed.
Lemma find_picks : forall ls lx names n, NoDup names -> picks ls lx names -> In n names -> find n lx = find n ls.
Proof.
  intros ls lx names n Hn [H1 H2] Hi. subst names. apply in_map_iff in Hi. destruct Hi as [[k t] [E Hi]].
  simpl in E; subst k. rewrite (In_find _ lx n t Hn Hi). symmetry. auto.
Qed.
Lemma picks_In : forall ls lx names n t, picks ls lx names -> find n lx = Some t -> find n ls = Some t /\ In n names.
Proof.
  intros ls lx names n t [H1 H2] H. apply find_In in H. split; [auto|]. subst names. apply (in_map fst) in H. exact H.
Qed.

Lemma NoDup_app_l : forall (a b : list string), NoDup (a ++ b) -> NoDup a.
Proof.
  induction a as [|x a IH]; simpl; intros b H; [constructor|]. inversion H; subst.
  constructor; [rewrite in_app_iff in *; tauto | eapply IH; eauto].
Qed.
Lemma NoDup_app_r : forall (a b : list string), NoDup (a ++ b) -> NoDup b.
Proof. induction a as [|x a IH]; simpl; intros b H; [assumption|]. inversion H; subst; auto. Qed.

(** ** split *)
Lemma check_prefix_ok : forall sep order, check_prefix sep order = HOk tt <-> exists r, order = (sep ++ r)%list.
Proof.
  induction sep as [|s sep IH]; intros order; simpl.
  - split; eauto.
  - destruct order as [|o order].
    + split; [discriminate | intros [r H]; discriminate].
    + destruct (String.eqb_spec s o) as [->|E].
      * rewrite IH. split; intros [r H]; exists r; simpl in *; congruence.
      * split; [discriminate | intros [r H]; simpl in H; congruence].
Qed.
Lemma map_fst_app_inv : forall (l : lay) a b, map fst l = (a ++ b)%list ->
  exists la lb, l = (la ++ lb)%list /\ map fst la = a /\ map fst lb = b.
Proof.
  intros l a. revert l. induction a as [|x a IH]; intros l b H; simpl in H.
  - exists [], l. auto.
  - destruct l as [|p l]; [discriminate|]. simpl in H. inversion H as [[H1 H2]].
    destruct (IH l b H2) as [la [lb [E1 [E2 E3]]]].
    exists (p :: la), lb. subst. simpl. auto.
Qed.
Lemma off_first : forall l1 p r, NoDup (map fst (l1 ++ p :: r)) -> off (fst p) (l1 ++ p :: r) = Some (total l1).
Proof.
  intros l1 [n t] r H. rewrite off_app. simpl. rewrite String.eqb_refl. simpl.
  destruct (off n l1) eqn:E; [|f_equal; lia].
  exfalso. rewrite map_app in H. simpl in H. apply NoDup_remove_2 in H. apply H.
  apply in_or_app. left. destruct (find n l1) eqn:F.
  - apply find_In in F. apply (in_map fst) in F. exact F.
  - apply off_find in F. congruence.
Qed.
Lemma rep_split : forall l h sep (after : bool), rep l h -> forall l1 l2, l = (l1 ++ l2)%list -> map fst l1 = sep ->
  exists h', hsplit sep after h = HOk h' /\ rep (if after then l2 else l1) h' /\
    hdata h' = if after then slice (total l1) (total l2) (hdata h) else slice 0 (total l1) (hdata h).
Proof.
  intros l h sep after H l1 l2 El Es. unfold hsplit.
  assert (Ho : horder h = (sep ++ map fst l2)%list) by (rewrite (rep_order l h H), El, map_app, Es; reflexivity).
  rewrite (proj2 (check_prefix_ok sep (horder h))) by eauto. simpl.
  pose proof (rep_nodup l h H) as Hn.
  assert (Li : length (horder h) = (length sep + length l2)%nat) by (rewrite Ho, app_length, map_length; reflexivity).
  assert (Ls : length sep = length l1) by (rewrite <- Es, map_length; reflexivity).
  destruct ((Nat.eqb (length sep) (length (horder h)) && after) || (Nat.eqb (length sep) 0 && negb after)) eqn:Z.
  - exists hempty. split; [reflexivity|].
    apply orb_prop in Z. destruct Z as [Z|Z]; apply andb_prop in Z; destruct Z as [Z1 Z2]; apply Nat.eqb_eq in Z1.
    + destruct after; [|discriminate]. destruct l2; [|simpl in *; lia]. split; [exact rep_empty|]. reflexivity.
    + destruct after; [discriminate|]. destruct l1; [|simpl in *; lia]. split; [exact rep_empty|]. reflexivity.
  - apply orb_false_elim in Z. destruct Z as [Z1 Z2].
    set (lx := if after then l2 else l1).
    assert (Nm : (if after then skipn (length sep) (horder h) else firstn (length sep) (horder h)) = map fst lx).
    { unfold lx. rewrite Ho. destruct after.
      - rewrite skipn_app, skipn_all, Nat.sub_diag. reflexivity.
      - rewrite firstn_app, firstn_all, Nat.sub_diag. simpl. rewrite app_nil_r. auto. }
    rewrite Nm.
    assert (Px : picks l lx (map fst lx)).
    { unfold lx. destruct after.
      - apply (picks_all l Hn l1 l2 []). rewrite app_nil_r. assumption.
      - apply (picks_all l Hn [] l1 l2). assumption. }
    destruct (add_from_ok h l (map fst lx) [] hempty H rep_empty) as [res Hres].
    + rewrite El, map_app in Hn. unfold lx.
      destruct after; [eapply NoDup_app_r; eauto | eapply NoDup_app_l; eauto].
    + intros n Hi E. apply in_map_iff in Hi. destruct Hi as [[k t] [Ek Hi]]. simpl in Ek; subst k.
      destruct Px as [_ Px]. rewrite (Px n t Hi) in E. discriminate.
    + reflexivity.
    + rewrite Hres. simpl.
      destruct (rep_add_from h l _ [] hempty res H rep_empty Hres) as [lx' [Px' [Rr Rd]]].
      rewrite (picks_unique l lx' lx _ Px' Px) in *. simpl in Rr, Rd.
      assert (Hsz : hsize res = if after then total l2 else total l1).
      { unfold hsize. rewrite (rep_size lx res Rr). unfold lx. destruct after; reflexivity. }
      assert (Fst : nth_error (horder h) (if after then length sep else 0) =
        match lx with [] => None | p :: _ => Some (fst p) end /\ lx <> []).
      { unfold lx. rewrite Ho. destruct after.
        - rewrite nth_error_app2, Nat.sub_diag by lia.
          destruct l2 as [|p l2]; [|split; [reflexivity | discriminate]].
          exfalso. rewrite Li in Z1. simpl in Z1. rewrite Nat.add_0_r, Nat.eqb_refl in Z1. discriminate.
        - rewrite <- Es. destruct l1 as [|p l1]; [|split; [reflexivity | discriminate]].
          exfalso. rewrite Ls in Z2. simpl in Z2. discriminate. }
      destruct Fst as [Fst Fne]. rewrite Fst. destruct lx as [|p r] eqn:Elx; [congruence|].
      unfold hloc_at. rewrite (rep_loc l h H).
      assert (Op : off (fst p) l = Some (if after then total l1 else 0%nat)).
      { unfold lx in Elx. destruct after.
        - subst l2. rewrite El. apply off_first. rewrite <- El. assumption.
        - subst l1. rewrite El. apply (off_first [] p (r ++ l2)). rewrite El in Hn. exact Hn. }
      rewrite Op. simpl.
      eexists. split; [reflexivity|]. rewrite Hsz.
      assert (Tl : (total l1 + total l2 = length (hdata h))%nat).
      { rewrite (rep_size l h H), El, total_app. reflexivity. }
      split.
      * apply rep_data; [assumption|].
        rewrite slice_length; [exact (eq_sym Hsz)|]. destruct after; lia.
      * simpl. destruct after; reflexivity.
Qed.

(** ** union *)
Lemma NoDup_app_intro : forall (a b : list string), NoDup a -> NoDup b -> (forall n, In n a -> ~ In n b) -> NoDup (a ++ b).
Proof.
  induction a as [|x a IH]; simpl; intros b Ha Hb H; [assumption|].
  inversion Ha; subst. constructor.
  - rewrite in_app_iff. intros [K|K]; [auto | eapply H; eauto].
  - apply IH; auto.
Qed.
Lemma rep_union : forall l h lo o, rep l h -> rep lo o -> (forall n, In n (horder h) -> ~ In n (horder o)) ->
  rep (l ++ lo) (hunion h o) /\ hdata (hunion h o) = (hdata h ++ hdata o)%list.
Proof.
  intros l h lo o H Ho Hd. split; [|reflexivity].
  rewrite (rep_order l h H), (rep_order lo o Ho) in Hd.
  destruct H as [H1 H2 H3 H4 H5]. destruct Ho as [G1 G2 G3 G4 G5].
  constructor; simpl.
  - rewrite H1, G1, map_app. reflexivity.
  - rewrite map_app. apply NoDup_app_intro; assumption.
  - intros n. rewrite find_insert_all, find_app, H3, G3. reflexivity.
  - intros n. rewrite G1. rewrite find_add_all by assumption.
    rewrite find_insert_all, off_app, H4, G4. unfold hsize. rewrite H5.
    destruct (mem n (map fst lo)) eqn:M.
    + apply mem_In in M.
      assert (N : off n l = None).
      { apply off_find. apply find_none_iff. intros K. eapply Hd; eauto. }
      rewrite N. destruct (off n lo) eqn:E.
      * simpl. f_equal. lia.
      * apply off_find in E. apply find_none_iff in E. contradiction.
    + destruct (off n l); [reflexivity|].
      assert (N : off n lo = None).
      { apply off_find. apply find_none_iff. intros K. apply mem_In in K. congruence. }
      rewrite N. reflexivity.
  - rewrite app_length, total_app, H5, G5. reflexivity.
Qed.

(** ** derivatives *)
Lemma derivative_type_size : forall a b c, derivative_type a b = Some c -> ssize c = (ssize a * ssize b)%nat.
Proof. intros a b c H; destruct a, b; simpl in H; try discriminate; inversion H; reflexivity. Qed.

Lemma rep_deriv_loop : forall dt src ls names la acc h', rep ls src -> rep la acc ->
  deriv_loop dt src names acc = HOk h' ->
  exists lx, rep (la ++ lx) h' /\
    Forall2 (fun n e => fst e = n /\ exists t, find n ls = Some t /\ derivative_type t dt = Some (snd e)) names lx.
Proof.
  intros dt src ls names. induction names as [|n r IH]; intros la acc h' Hs Ha A; simpl in A.
  - inversion A; subst. exists []. rewrite app_nil_r. split; [assumption | constructor].
  - unfold htype_at in A. rewrite (rep_type ls src Hs) in A.
    destruct (find n ls) as [t|] eqn:F; [|discriminate]. simpl in A.
    destruct (derivative_type t dt) as [nt|] eqn:D; [|discriminate].
    destruct (hadd n nt acc) as [a1|] eqn:E; [|discriminate]. simpl in A.
    destruct (rep_add la acc n nt a1 Ha E) as [_ [H1 _]].
    destruct (IH _ _ _ Hs H1 A) as [lx [Hr Hf]].
    exists ((n, nt) :: lx). split; [rewrite <- app_assoc in Hr; exact Hr|].
    constructor; [|assumption]. simpl. split; [reflexivity | eauto].
Qed.
Definition dpick (lh lo : lay) (p : string * string) (e : string * stype) : Prop :=
  fst e = dname p /\ exists t1 t2, find (fst p) lh = Some t1 /\ find (snd p) lo = Some t2 /\
    derivative_type t1 t2 = Some (snd e).
Lemma rep_hderiv_loop : forall h o lh lo ps la acc h', rep lh h -> rep lo o -> rep la acc ->
  hderiv_loop h o ps acc = HOk h' -> exists lx, rep (la ++ lx) h' /\ Forall2 (dpick lh lo) ps lx.
Proof.
  intros h o lh lo ps. induction ps as [|p r IH]; intros la acc h' Hh Ho Ha A; simpl in A.
  - inversion A; subst. exists []. rewrite app_nil_r. split; [assumption | constructor].
  - unfold htype_at in A. rewrite (rep_type lh h Hh), (rep_type lo o Ho) in A.
    destruct (find (fst p) lh) as [t1|] eqn:F1; [|discriminate]. simpl in A.
    destruct (find (snd p) lo) as [t2|] eqn:F2; [|discriminate]. simpl in A.
    destruct (derivative_type t1 t2) as [nt|] eqn:D; [|discriminate].
    destruct (hadd (dname p) nt acc) as [a1|] eqn:E; [|discriminate]. simpl in A.
    destruct (rep_add la acc _ nt a1 Ha E) as [_ [H1 _]].
    destruct (IH _ _ _ Hh Ho H1 A) as [lx [Hr Hf]].
    exists ((dname p, nt) :: lx). split; [rewrite <- app_assoc in Hr; exact Hr|].
    constructor; [|assumption]. split; [reflexivity | eauto 6].
Qed.

(** ** Every reachable history is represented by a layout *)
Lemma reachable_rep : forall h, reachable h -> exists l, rep l h.
Proof.
  induction 1 as [ | n t h h' _ [l Hl] A | t n vs h h' _ [l Hl] L A | h _ [l Hl] | k h _ [l Hl]
    | h o h' _ [l Hl] A | h _ [l Hl] | ex h h' _ [l Hl] A | vs h h' _ [l Hl] A | sep af h h' _ [l Hl] A
    | h o _ [l Hl] _ [lo Hlo] D | dt h h' _ [l Hl] A | h o h' _ [l Hl] _ [lo Hlo] A ].
  - exists []. exact rep_empty.
  - destruct (rep_add l h n t h' Hl A) as [_ [H _]]. eauto.
  - destruct (rep_set l h t n vs h' Hl L A) as [o [_ [_ [H _]]]]. eauto.
  - exists l. apply rep_zero. assumption.
  - exists l. apply rep_data; [assumption | apply map_length].
  - exists l. eapply rep_plus; eauto.
  - exists l. apply rep_deepcopy. assumption.
  - destruct (rep_blank l ex h Hl) as [h2 [E [H _]]]. rewrite E in A. inversion A; subst. eauto.
  - destruct (rep_subset_loop h l vs [] hempty h' Hl rep_empty A) as [lx [_ [H _]]]. eauto.
  - pose proof A as A0. unfold hsplit in A0. destruct (check_prefix sep (horder h)) as [[]|] eqn:C; [|discriminate].
    clear A0. apply check_prefix_ok in C. destruct C as [r C]. rewrite (rep_order l h Hl) in C.
    destruct (map_fst_app_inv l sep r C) as [l1 [l2 [E1 [E2 _]]]].
    destruct (rep_split l h sep af Hl l1 l2 E1 E2) as [h2 [E [H _]]]. rewrite E in A. inversion A; subst. eauto.
  - exists (l ++ lo)%list. apply rep_union; assumption.
  - unfold hderivative in A. destruct (deriv_loop dt h (horder h) hempty) as [d|] eqn:E; [|discriminate].
    simpl in A. inversion A; subst.
    destruct (rep_deriv_loop dt h l _ [] hempty d Hl rep_empty E) as [lx [H _]].
    exists lx. apply rep_zero. assumption.
  - unfold hhist_derivative in A. destruct (hderiv_loop h o _ hempty) as [d|] eqn:E; [|discriminate].
    simpl in A. inversion A; subst.
    destruct (rep_hderiv_loop h o l lo _ [] hempty d Hl Hlo rep_empty E) as [lx [H _]].
    exists lx. apply rep_zero. assumption.
Qed.

(** ** unravel *)
Lemma Forall2_In_l : forall A B (P : A -> B -> Prop) a la lb, Forall2 P la lb -> In a la -> exists b, In b lb /\ P a b.
Proof.
  intros A B P a la lb H. induction H as [|x y r r' Hxy _ IH]; simpl; [tauto|].
  intros [->|Hi]; [eauto|]. destruct (IH Hi) as [b [H1 H2]]. eauto.
Qed.
Lemma In_off : forall l n, In n (map fst l) -> exists o t, off n l = Some o /\ find n l = Some t.
Proof.
  intros l n H. destruct (find n l) as [t|] eqn:F.
  - destruct (off n l) as [o|] eqn:E; [eauto|]. apply off_find in E; congruence.
  - apply find_none_iff in F. contradiction.
Qed.
(** The block of a pair and the value at (r,c). *)
Definition in_block (lb : lay) (p : string * string) (r c : nat) : Prop :=
  exists o1 t1 o2 t2, off (fst p) lb = Some o1 /\ find (fst p) lb = Some t1 /\
    off (snd p) lb = Some o2 /\ find (snd p) lb = Some t2 /\
    (o1 <= r < o1 + ssize t1)%nat /\ (o2 <= c < o2 + ssize t2)%nat.
Lemma in_block_unique : forall lb p q r c, in_block lb p r c -> in_block lb q r c -> p = q.
Proof.
  intros lb [p1 p2] [q1 q2] r c (a1 & t1 & a2 & t2 & H1 & H2 & H3 & H4 & H5 & H6) (b1 & u1 & b2 & u2 & G1 & G2 & G3 & G4 & G5 & G6).
  simpl in *. f_equal.
  - destruct (string_dec p1 q1) as [E|E]; [assumption|].
    destruct (off_disjoint _ _ _ _ _ _ _ E H1 G1 H2 G2); lia.
  - destruct (string_dec p2 q2) as [E|E]; [assumption|].
    destruct (off_disjoint _ _ _ _ _ _ _ E H3 G3 H4 G4); lia.
Qed.
Lemma unravel_loop_ok : forall d base ld lb ps a, rep ld d -> rep lb base ->
  (forall p, In p ps -> In (fst p) (map fst lb) /\ In (snd p) (map fst lb) /\ In (dname p) (map fst ld)) ->
  exists A, unravel_loop d base ps a = HOk A /\
    (forall r c p o1 t1 o2 t2 start, off (fst p) lb = Some o1 -> find (fst p) lb = Some t1 ->
       off (snd p) lb = Some o2 -> find (snd p) lb = Some t2 -> off (dname p) ld = Some start ->
       (o1 <= r < o1 + ssize t1)%nat -> (o2 <= c < o2 + ssize t2)%nat ->
       (In p ps \/ a r c = nth_error (hdata d) (start + ((r - o1) * ssize t2 + (c - o2)))) ->
       A r c = nth_error (hdata d) (start + ((r - o1) * ssize t2 + (c - o2)))).
Proof.
  intros d base ld lb ps. induction ps as [|p ps IH]; intros a Hd Hb Hin; simpl.
  - exists a. split; [reflexivity|]. intros r c p o1 t1 o2 t2 start _ _ _ _ _ _ _ [[]|H]. exact H.
  - destruct (Hin p (or_introl eq_refl)) as [I1 [I2 I3]].
    destruct (In_off lb _ I1) as [o1 [t1 [O1 T1]]]. destruct (In_off lb _ I2) as [o2 [t2 [O2 T2]]].
    destruct (In_off ld _ I3) as [st [td [Os _]]].
    unfold htype_at, hloc_at. rewrite !(rep_type lb base Hb), !(rep_loc lb base Hb), (rep_loc ld d Hd).
    rewrite O1, T1, O2, T2, Os. simpl.
    destruct (IH (write_block o1 (ssize t1) o2 (ssize t2) st (hdata d) a) Hd Hb) as [A [HA HP]].
    { intros q Hq. apply Hin. right; auto. }
    exists A. split; [exact HA|].
    intros r c q p1 u1 p2 u2 su Q1 U1 Q2 U2 Su Hr Hc Hor.
    apply (HP r c q p1 u1 p2 u2 su); auto.
    assert (Bq : in_block lb q r c) by (exists p1, u1, p2, u2; auto 10).
    unfold write_block.
    destruct (Nat.leb o1 r && Nat.ltb r (o1 + ssize t1) && Nat.leb o2 c && Nat.ltb c (o2 + ssize t2))%bool eqn:B.
    + apply andb_prop in B. destruct B as [B B4]. apply andb_prop in B. destruct B as [B B3].
      apply andb_prop in B. destruct B as [B1 B2].
      apply Nat.leb_le in B1, B3. apply Nat.ltb_lt in B2, B4.
      assert (Bp : in_block lb p r c) by (exists o1, t1, o2, t2; repeat split; auto).
      assert (E : p = q) by (eapply in_block_unique; eauto). subst q.
      right. assert (o1 = p1) by congruence. assert (o2 = p2) by congruence. assert (t2 = u2) by congruence.
      assert (st = su) by congruence. subst. reflexivity.
    + destruct Hor as [[E|Hq]|Ha]; [|left; assumption | right; assumption].
      exfalso. subst q. assert (o1 = p1) by congruence. assert (o2 = p2) by congruence.
      assert (t2 = u2) by congruence. assert (t1 = u1) by congruence. subst.
      apply Bool.not_true_iff_false in B. apply B.
      rewrite (proj2 (Nat.leb_le p1 r)), (proj2 (Nat.leb_le p2 c)), (proj2 (Nat.ltb_lt r _)), (proj2 (Nat.ltb_lt c _)); try lia.
Qed.

(** ** formatted names *)
Lemma formatted_loop : forall ts h l, rep l h -> forall lx acc, (forall n t, In (n, t) lx -> find n l = Some t) ->
  exists r, fold_left (fun acc n => hbind acc (fun l => hbind (htype_at n h) (fun t =>
     HOk (l ++ (if Nat.eqb (ssize t) 1 then [n]
                else map (fun i => (n ++ "_" ++ ts i)%string) (seq 0 (ssize t)))))))
    (map fst lx) (HOk acc) = HOk r /\ length r = (length acc + total lx)%nat.
Proof.
  intros ts h l H lx. induction lx as [|[n t] r IH]; intros acc Hp; simpl.
  - exists acc. split; [reflexivity | lia].
  - unfold htype_at at 2. rewrite (rep_type l h H), (Hp n t) by (left; auto). simpl.
    destruct (IH (acc ++ (if Nat.eqb (ssize t) 1 then [n]
                else map (fun i => (n ++ "_" ++ ts i)%string) (seq 0 (ssize t))))%list) as [res [E L]].
    { intros; apply Hp; right; auto. }
    exists res. split; [exact E|]. rewrite L, app_length.
    destruct (Nat.eqb_spec (ssize t) 1); [simpl; lia|]. rewrite map_length, seq_length. lia.
Qed.

(** ** Statements *)
Lemma layout_rep : forall h l, reachable h -> layout h l -> rep l h.
Proof.
  intros h l H [L1 L2]. destruct (reachable_rep h H) as [l' R].
  assert (E : l = l').
  { apply (picks_unique l' l l' (horder h)).
    - split; [symmetry; exact L1|]. intros n t Hi. rewrite <- (rep_type l' h R). auto.
    - rewrite (rep_order l' h R). apply (picks_all l' (rep_nodup l' h R) [] l' []). rewrite app_nil_r. reflexivity. }
  subst. exact R.
Qed.
Lemma rep_layout : forall h l, rep l h -> layout h l.
Proof.
  intros h l R. split; [apply (rep_order l h R)|]. intros n t Hi. rewrite (rep_type l h R).
  apply In_find; [apply (rep_nodup l h R) | assumption].
Qed.

Lemma hist_layout_exists : forall h, reachable h ->
  exists l, layout h l /\ NoDup (map fst l) /\ hsize h = total l.
Proof.
  intros h H. destruct (reachable_rep h H) as [l R]. exists l.
  split; [apply rep_layout; assumption|]. split; [apply (rep_nodup l h R) | apply (rep_size l h R)].
Qed.
Lemma hist_disjoint : forall h, reachable h -> forall n1 n2 o1 o2 t1 t2, n1 <> n2 ->
  hlookup t1 n1 h = HOk o1 -> hlookup t2 n2 h = HOk o2 ->
  (o1 + ssize t1 <= o2 \/ o2 + ssize t2 <= o1)%nat.
Proof.
  intros h H n1 n2 o1 o2 t1 t2 Hn A B. destruct (reachable_rep h H) as [l R].
  rewrite (rep_lookup l h _ _ R) in A. rewrite (rep_lookup l h _ _ R) in B.
  destruct (find n1 l) as [u1|] eqn:F1; [|discriminate]. destruct (find n2 l) as [u2|] eqn:F2; [|discriminate].
  destruct (stype_eqb t1 u1) eqn:E1; [|discriminate]. destruct (stype_eqb t2 u2) eqn:E2; [|discriminate].
  apply stype_eqb_eq in E1, E2. subst.
  destruct (off n1 l) eqn:O1; [|discriminate]. destruct (off n2 l) eqn:O2; [|discriminate].
  inversion A; inversion B; subst. exact (off_disjoint l n1 n2 o1 o2 u1 u2 Hn O1 O2 F1 F2).
Qed.
Lemma hist_in_bounds : forall h, reachable h -> forall n o t, hlookup t n h = HOk o -> (o + ssize t <= hsize h)%nat.
Proof.
  intros h H n o t A. destruct (reachable_rep h H) as [l R].
  rewrite (rep_lookup l h _ _ R) in A.
  destruct (find n l) as [u|] eqn:F; [|discriminate].
  destruct (stype_eqb t u) eqn:E; [|discriminate]. apply stype_eqb_eq in E; subst.
  destruct (off n l) eqn:O; [|discriminate]. inversion A; subst.
  unfold hsize. rewrite (rep_size l h R). eapply off_bound; eauto.
Qed.
Lemma hist_cover : forall h, reachable h -> forall i, (i < hsize h)%nat ->
  exists n o t, In n (horder h) /\ hlookup t n h = HOk o /\ (o <= i < o + ssize t)%nat.
Proof.
  intros h H i Hi. destruct (reachable_rep h H) as [l R].
  unfold hsize in Hi. rewrite (rep_size l h R) in Hi.
  destruct (off_cover l i (rep_nodup l h R) Hi) as [n [o [t [O [F B]]]]].
  exists n, o, t. split; [|split; [|assumption]].
  - rewrite (rep_order l h R). apply find_In in F. apply (in_map fst) in F. exact F.
  - rewrite (rep_lookup l h _ _ R), F, stype_eqb_refl, O. reflexivity.
Qed.
Lemma hist_write_read : forall h, reachable h -> forall t n vs h', length vs = ssize t -> hset t n vs h = HOk h' ->
  has_var h' n t vs /\ horder h' = horder h /\
  (forall m u ws, m <> n -> (has_var h' m u ws <-> has_var h m u ws)).
Proof.
  intros h H t n vs h' L A. destruct (reachable_rep h H) as [l R].
  destruct (rep_set l h t n vs h' R L A) as [o [F [O [R' [D B]]]]].
  split; [|split].
  - unfold has_var. destruct (rep_get l h' t n R' F) as [o' [O' [G _]]].
    rewrite G. assert (o' = o) by congruence. subst o'. rewrite D, <- L. f_equal. apply slice_overwrite_same. assumption.
  - rewrite (rep_order l h R), (rep_order l h' R'). reflexivity.
  - intros m u ws Hm. unfold has_var.
    assert (E : hget u m h' = hget u m h); [|rewrite E; tauto].
    unfold hget. rewrite !(rep_lookup l _ _ _ R), !(rep_lookup l _ _ _ R').
    destruct (find m l) as [um|] eqn:Fm; [|reflexivity].
    destruct (stype_eqb u um) eqn:Eu; [|reflexivity]. apply stype_eqb_eq in Eu; subst um.
    destruct (off m l) as [om|] eqn:Om; [|reflexivity]. simpl. f_equal. rewrite D.
    apply slice_overwrite_other; [assumption|]. rewrite L.
    destruct (off_disjoint l m n om o u t Hm Om O Fm F); [left | right]; lia.
Qed.
Lemma hist_set_ok : forall h, reachable h -> forall t n vs, hset t n vs h <> HErr EOutOfRange /\
  ((exists h', hset t n vs h = HOk h') <-> exists ws, has_var h n t ws).
Proof.
  intros h H t n vs. destruct (reachable_rep h H) as [l R].
  unfold hset, has_var, hget. rewrite (rep_lookup l _ _ _ R).
  destruct (find n l) as [u|]; [destruct (stype_eqb t u); [destruct (off n l)|]|]; simpl;
    (split; [discriminate|]); split; intros [x E]; try discriminate; eauto.
Qed.

Lemma hist_add_dup : forall h, reachable h -> forall n t, In n (horder h) -> hadd n t h = HErr EExists.
Proof.
  intros h H n t Hi. destruct (reachable_rep h H) as [l R]. unfold hadd.
  rewrite (rep_contains l h n R). rewrite (rep_order l h R) in Hi.
  destruct (find n l) eqn:F; [reflexivity|]. apply find_none_iff in F. contradiction.
Qed.
Lemma hist_add_new : forall h, reachable h -> forall n t, ~ In n (horder h) ->
  exists h', hadd n t h = HOk h' /\ horder h' = (horder h ++ [n])%list /\ hsize h' = (hsize h + ssize t)%nat /\
    (exists vs, has_var h' n t vs) /\ (forall m u ws, m <> n -> (has_var h' m u ws <-> has_var h m u ws)).
Proof.
  intros h H n t Hi. destruct (reachable_rep h H) as [l R].
  destruct (hadd n t h) as [h'|e] eqn:A.
  - exists h'. split; [reflexivity|]. destruct (rep_add l h n t h' R A) as [F [R' D]].
    split; [|split; [|split]].
    + rewrite (rep_order _ h' R'), (rep_order l h R), map_app. reflexivity.
    + unfold hsize. rewrite D, app_length, repeat_length. reflexivity.
    + destruct (rep_get _ h' t n R') as [o [_ [G _]]]; [|eexists; exact G].
      rewrite find_app, F. simpl. rewrite String.eqb_refl. reflexivity.
    + intros m u ws Hm. unfold has_var.
      assert (E : hget u m h' = hget u m h); [|rewrite E; tauto].
      unfold hget. rewrite (rep_lookup l _ _ _ R), (rep_lookup _ _ _ _ R').
      rewrite find_app, off_app. simpl. destruct (String.eqb_spec m n); [congruence|].
      destruct (find m l) as [um|] eqn:Fm; [|reflexivity].
      destruct (stype_eqb u um) eqn:Eu; [|reflexivity]. apply stype_eqb_eq in Eu; subst um.
      destruct (off m l) as [om|] eqn:Om; [|apply off_find in Om; congruence]. simpl. f_equal. rewrite D.
      apply slice_app1. rewrite (rep_size l h R). eapply off_bound; eauto.
  - exfalso. unfold hadd in A. rewrite (rep_contains l h n R) in A.
    destruct (find n l) eqn:F; [|discriminate]. apply Hi. rewrite (rep_order l h R).
    apply find_In in F. apply (in_map fst) in F. exact F.
Qed.
Lemma hist_get_missing : forall h, reachable h -> forall n t, ~ In n (horder h) -> hget t n h = HErr ENotExists.
Proof.
  intros h H n t Hi. destruct (reachable_rep h H) as [l R]. unfold hget. rewrite (rep_lookup l h _ _ R).
  rewrite (rep_order l h R) in Hi. apply find_none_iff in Hi. rewrite Hi. reflexivity.
Qed.
Lemma hist_get_present : forall h, reachable h -> forall n, In n (horder h) ->
  exists t vs, has_var h n t vs /\ length vs = ssize t /\ forall u, u <> t -> hget u n h = HErr EWrongType.
Proof.
  intros h H n Hi. destruct (reachable_rep h H) as [l R]. rewrite (rep_order l h R) in Hi.
  destruct (In_off l n Hi) as [o [t [O F]]].
  destruct (rep_get l h t n R F) as [o' [O' [G B]]].
  exists t. eexists. split; [exact G|]. split; [apply slice_length; assumption|].
  intros u Hu. unfold hget. rewrite (rep_lookup l h _ _ R), F.
  destruct (stype_eqb u t) eqn:E; [apply stype_eqb_eq in E; congruence | reflexivity].
Qed.

Lemma hist_subset : forall h, reachable h -> forall vars, NoDup vars -> (forall n, In n vars -> In n (horder h)) ->
  exists h', hsubset vars h = HOk h' /\ horder h' = vars /\
    (forall n t vs, In n vars -> (has_var h' n t vs <-> has_var h n t vs)).
Proof.
  intros h H vars Hn Hi. destruct (reachable_rep h H) as [l R].
  destruct (subset_loop_ok h l vars [] hempty R rep_empty Hn) as [h' A].
  - intros n In E. apply find_none_iff in E. apply E. rewrite <- (rep_order l h R). auto.
  - reflexivity.
  - exists h'. split; [exact A|].
    destruct (rep_subset_loop h l vars [] hempty h' R rep_empty A) as [lx [P [R' D]]]. simpl in R', D.
    split; [rewrite (rep_order lx h' R'); apply P|].
    intros n t vs Hv. unfold has_var. assert (E : hget t n h' = hget t n h); [|rewrite E; tauto].
    unfold hget. rewrite (rep_lookup l h _ _ R), (rep_lookup lx h' _ _ R').
    rewrite (find_picks l lx vars n Hn P Hv).
    destruct (find n l) as [u|] eqn:F; [|reflexivity].
    destruct (stype_eqb t u) eqn:Eu; [|reflexivity]. apply stype_eqb_eq in Eu; subst u.
    assert (Fx : find n lx = Some t) by (rewrite (find_picks l lx vars n Hn P Hv); exact F).
    destruct (off n lx) as [ox|] eqn:Ox; [|apply off_find in Ox; congruence].
    destruct (vals_slice l (hdata h) lx vars n t ox (rep_size l h R) P Fx Ox) as [o' [O' S]].
    rewrite O'. simpl. f_equal. rewrite D. exact S.
Qed.
Lemma hist_subset_missing : forall h, reachable h -> forall vars n, In n vars -> ~ In n (horder h) ->
  forall h', hsubset vars h <> HOk h'.
Proof.
  intros h H vars n Hv Hn h' A. destruct (reachable_rep h H) as [l R].
  destruct (rep_subset_loop h l vars [] hempty h' R rep_empty A) as [lx [[P1 P2] _]].
  subst vars. apply in_map_iff in Hv. destruct Hv as [[k t] [E Hi]]. simpl in E; subst k.
  apply P2 in Hi. apply Hn. rewrite (rep_order l h R). apply find_In in Hi. apply (in_map fst) in Hi. exact Hi.
Qed.

Lemma get_split : forall l h l1 l2 o n t h', rep l h -> l = (l1 ++ l2)%list ->
  forall (after : bool), rep (if after then l2 else l1) h' ->
  hdata h' = (if after then slice (total l1) (total l2) (hdata h) else slice 0 (total l1) (hdata h)) ->
  In n (map fst (if after then l2 else l1)) -> off n l = Some o -> hget t n h' = hget t n h.
Proof.
  intros l h l1 l2 o n t h' R E after R' D Hi O.
  unfold hget. rewrite (rep_lookup l h _ _ R), (rep_lookup _ h' _ _ R').
  pose proof (rep_nodup l h R) as Hn. rewrite E, map_app in Hn.
  match type of R' with rep ?lx _ => assert (Ff : find n lx = find n l) end.
  { rewrite E, find_app. destruct after.
    - destruct (find n l1) eqn:F; [|reflexivity]. exfalso.
      apply find_In in F. apply (in_map fst) in F. simpl in F.
      clear - Hn F Hi. induction (map fst l1) as [|x r IH]; simpl in *; [contradiction|].
      inversion Hn; subst. destruct F as [->|F]; [apply H1; apply in_or_app; auto | auto].
    - destruct (find n l1) eqn:F; [reflexivity|]. apply find_none_iff in F. contradiction. }
  rewrite Ff. destruct (find n l) as [u|] eqn:F; [|reflexivity].
  destruct (stype_eqb t u) eqn:Eu; [|reflexivity]. apply stype_eqb_eq in Eu; subst u.
  rewrite O, D. destruct after.
  - destruct (off n l2) as [o2|] eqn:O2; [|apply off_find in O2; congruence].
    rewrite E, off_app in O. destruct (off n l1) eqn:O1.
    + exfalso. assert (X : find n l1 <> None) by (rewrite <- off_find; congruence).
      destruct (find n l1) eqn:F1; [|congruence]. apply find_In in F1. apply (in_map fst) in F1. simpl in F1.
      clear - Hn F1 Hi. induction (map fst l1) as [|x r IH]; simpl in *; [contradiction|].
      inversion Hn; subst. destruct F1 as [->|F1]; [apply H1; apply in_or_app; auto | auto].
    + rewrite O2 in O. simpl in O. inversion O; subst o. simpl. f_equal. apply slice_slice.
      eapply off_bound; eauto.
  - destruct (off n l1) as [o1|] eqn:O1; [|apply off_find in O1; congruence].
    rewrite E, off_app, O1 in O. inversion O; subst o1. simpl. f_equal. rewrite slice_slice; [reflexivity|].
    eapply off_bound; eauto.
Qed.
Lemma hist_split : forall h, reachable h -> forall sep rest, horder h = (sep ++ rest)%list -> forall after : bool,
  exists h', hsplit sep after h = HOk h' /\ horder h' = (if after then rest else sep) /\
    forall n t vs, In n (if after then rest else sep) -> (has_var h' n t vs <-> has_var h n t vs).
Proof.
  intros h H sep rest Ho after. destruct (reachable_rep h H) as [l R].
  rewrite (rep_order l h R) in Ho. destruct (map_fst_app_inv l sep rest Ho) as [l1 [l2 [E [E1 E2]]]].
  destruct (rep_split l h sep after R l1 l2 E E1) as [h' [A [R' D]]].
  exists h'. split; [exact A|].
  assert (Eo : map fst (if after then l2 else l1) = if after then rest else sep) by (destruct after; assumption).
  split; [rewrite (rep_order _ h' R'); exact Eo|].
  intros n t vs Hi. unfold has_var. rewrite <- Eo in Hi.
  destruct (In_off l n) as [o [u [O F]]].
  { rewrite E, map_app. apply in_or_app. destruct after; auto. }
  rewrite (get_split l h l1 l2 o n t h' R E after R' D Hi O). tauto.
Qed.
Lemma hist_split_error : forall h, reachable h -> forall sep (after : bool),
  (length sep <= length (horder h))%nat -> firstn (length sep) (horder h) <> sep ->
  hsplit sep after h = HErr EContiguous.
Proof.
  intros h _ sep after. unfold hsplit.
  assert (X : forall sep order, (length sep <= length order)%nat -> firstn (length sep) order <> sep ->
    check_prefix sep order = HErr EContiguous).
  { clear. induction sep as [|s r IH]; intros [|o order] L N; simpl in *; try lia; try congruence.
    destruct (String.eqb_spec s o) as [->|E]; [|reflexivity]. apply IH; [lia | congruence]. }
  intros L N. rewrite (X _ _ L N). reflexivity.
Qed.
Lemma repeat_slice : forall A (x : A) o n m, (o + n <= m)%nat -> slice o n (repeat x m) = repeat x n.
Proof.
  intros A x o n m H. apply list_ext. intros i. rewrite nth_slice.
  destruct (Nat.ltb_spec i n) as [E|E].
  - rewrite !nth_error_repeat by lia. reflexivity.
  - symmetry. apply nth_error_None. rewrite repeat_length. lia.
Qed.
Lemma hist_blank : forall h, reachable h -> forall ex,
  exists h', hcopy_blank ex h = HOk h' /\
    horder h' = filter (fun n => negb (mem n ex)) (horder h) /\
    forall n t, (exists vs, has_var h n t vs) -> ~ In n ex -> has_var h' n t (repeat (Some 0) (ssize t)).
Proof.
  intros h H ex. destruct (reachable_rep h H) as [l R].
  destruct (rep_blank l ex h R) as [h' [A [R' D]]]. exists h'. split; [exact A|].
  split.
  - rewrite (rep_order _ h' R'), (rep_order l h R).
    apply (proj1 (picks_filter l (fun n => negb (mem n ex)) (rep_nodup l h R))).
  - intros n t [vs G] Hn. destruct (rep_get_inv l h t n vs R G) as [o [F _]].
    assert (Fx : find n (filter (fun p => negb (mem (fst p) ex)) l) = Some t).
    { rewrite (find_filter _ l (fun n => negb (mem n ex))).
      destruct (mem n ex) eqn:M; [apply mem_In in M; contradiction | exact F]. }
    destruct (rep_get _ h' t n R' Fx) as [o' [O' [G' B]]]. unfold has_var. rewrite G'. f_equal. rewrite D.
    apply repeat_slice. rewrite D, repeat_length in B. exact B.
Qed.
Lemma hist_union : forall h o, reachable h -> reachable o -> (forall n, In n (horder h) -> ~ In n (horder o)) ->
  horder (hunion h o) = (horder h ++ horder o)%list /\
  (forall n t vs, In n (horder h) -> (has_var (hunion h o) n t vs <-> has_var h n t vs)) /\
  (forall n t vs, In n (horder o) -> (has_var (hunion h o) n t vs <-> has_var o n t vs)).
Proof.
  intros h o H Ho Hd. destruct (reachable_rep h H) as [l R]. destruct (reachable_rep o Ho) as [lo Ro].
  destruct (rep_union l h lo o R Ro Hd) as [R' D]. split; [reflexivity|]. split; intros n t vs Hi; unfold has_var.
  - assert (E : hget t n (hunion h o) = hget t n h); [|rewrite E; tauto].
    unfold hget. rewrite (rep_lookup l h _ _ R), (rep_lookup _ _ _ _ R').
    rewrite (rep_order l h R) in Hi. destruct (In_off l n Hi) as [p [u [O F]]].
    rewrite find_app, off_app, F, O. destruct (stype_eqb t u) eqn:E; [|reflexivity].
    apply stype_eqb_eq in E; subst u. simpl. f_equal. apply slice_app1.
    rewrite (rep_size l h R). eapply off_bound; eauto.
  - assert (E : hget t n (hunion h o) = hget t n o); [|rewrite E; tauto].
    unfold hget. rewrite (rep_lookup lo o _ _ Ro), (rep_lookup _ _ _ _ R').
    assert (N : find n l = None).
    { apply find_none_iff. rewrite <- (rep_order l h R). intros K. eapply Hd; eauto. }
    rewrite (rep_order lo o Ro) in Hi. destruct (In_off lo n Hi) as [p [u [O F]]].
    rewrite find_app, off_app, N, (proj2 (off_find l n) N), F, O. destruct (stype_eqb t u); [|reflexivity].
    simpl. f_equal. rewrite <- (rep_size l h R). apply slice_app2.
Qed.
Lemma hist_deepcopy : forall h, reachable h -> horder (hdeepcopy h) = horder h /\
  forall n t, hget t n (hdeepcopy h) = hget t n h.
Proof.
  intros h H. destruct (reachable_rep h H) as [l R]. destruct (rep_deepcopy l h R) as [R' D].
  split; [reflexivity|]. intros n t. unfold hget. rewrite (rep_lookup l h _ _ R), (rep_lookup l _ _ _ R'), D. reflexivity.
Qed.
Lemma hist_scale : forall h, reachable h -> forall k n t vs, has_var h n t vs ->
  has_var (hscale k h) n t (map (option_map (fun v => v * k)) vs).
Proof.
  intros h H k n t vs G. destruct (reachable_rep h H) as [l R].
  destruct (rep_get_inv l h t n vs R G) as [o [F [O E]]]. subst vs.
  assert (R' : rep l (hscale k h)) by (apply rep_data; [assumption | apply map_length]).
  destruct (rep_get l _ t n R' F) as [o' [O' [G' _]]]. unfold has_var. rewrite G'. f_equal.
  assert (o' = o) by congruence. subst o'. unfold hscale. cbn [hdata]. apply slice_map.
Qed.
Lemma slice_combine : forall A B o n (a : list A) (b : list B), slice o n (combine a b) = combine (slice o n a) (slice o n b).
Proof.
  intros A B o n a b. unfold slice. rewrite <- combine_firstn. f_equal.
  revert a b. induction o as [|o IH]; intros [|x a] [|y b]; simpl; auto.
  - destruct (skipn o a); reflexivity.
Qed.
Lemma hist_plus : forall h o, reachable h -> reachable o -> horder h = horder o ->
  (forall n, In n (horder h) -> find n (htype h) = find n (htype o)) ->
  exists h', hplus h o = HOk h' /\ forall n t vs ws, has_var h n t vs -> has_var o n t ws ->
    has_var h' n t (map (fun ab => cell_add (fst ab) (snd ab)) (combine vs ws)).
Proof.
  intros h o H Ho E T. destruct (reachable_rep h H) as [l R].
  assert (Ro : rep l o).
  { apply layout_rep; [assumption|]. split; [rewrite <- E; apply (rep_order l h R)|].
    intros n t Hi. rewrite <- T; [|rewrite (rep_order l h R); apply (in_map fst) in Hi; exact Hi].
    rewrite (rep_type l h R). apply In_find; [apply (rep_nodup l h R) | assumption]. }
  destruct (hplus h o) as [h'|e] eqn:A.
  - exists h'. split; [reflexivity|]. intros n t vs ws G1 G2.
    destruct (rep_plus l h o h' R A) as [R' [D _]].
    destruct (rep_get_inv l h t n vs R G1) as [p [F [O E1]]].
    destruct (rep_get_inv l o t n ws Ro G2) as [p' [_ [O2 E2]]]. assert (p' = p) by congruence. subst.
    destruct (rep_get l _ t n R' F) as [o' [O' [G' _]]]. unfold has_var. rewrite G'. f_equal.
    assert (o' = p) by congruence. subst o'. rewrite D, slice_map, slice_combine. reflexivity.
  - exfalso. unfold hplus, hsize in A. rewrite (rep_size l h R), (rep_size l o Ro), Nat.eqb_refl in A. discriminate.
Qed.

(** derivative history against itself or another history *)
Lemma dtotal : forall lh lo ps lx, Forall2 (dpick lh lo) ps lx ->
  total lx = list_sum (map (fun p => match find (fst p) lh, find (snd p) lo with
     | Some a, Some b => (ssize a * ssize b)%nat | _, _ => 0%nat end) ps).
Proof.
  intros lh lo ps lx H. induction H as [|p [n t] ps lx [_ [t1 [t2 [F1 [F2 D]]]]] _ IH]; [reflexivity|].
  simpl. rewrite F1, F2, IH. simpl in D. rewrite (derivative_type_size _ _ _ D). reflexivity.
Qed.
Lemma sum_prod : forall lh lo, NoDup (map fst lh) -> NoDup (map fst lo) ->
  list_sum (map (fun p => match find (fst p) lh, find (snd p) lo with
     | Some a, Some b => (ssize a * ssize b)%nat | _, _ => 0%nat end) (list_prod (map fst lh) (map fst lo)))
  = (total lh * total lo)%nat.
Proof.
  intros lh lo Nh No.
  assert (X : forall lx : lay, (forall n t, In (n, t) lx -> find n lo = Some t) -> forall n t, find n lh = Some t ->
    list_sum (map (fun p => match find (fst p) lh, find (snd p) lo with
     | Some a, Some b => (ssize a * ssize b)%nat | _, _ => 0%nat end) (map (fun y => (n, y)) (map fst lx))) = (ssize t * total lx)%nat).
  { induction lx as [|[m u] r IH]; intros Hx n t F; simpl; [lia|].
    rewrite F, (Hx m u) by (left; auto). rewrite (IH (fun a b K => Hx a b (or_intror K)) n t F). lia. }
  assert (Y : forall lx : lay, (forall n t, In (n, t) lx -> find n lh = Some t) ->
    list_sum (map (fun p => match find (fst p) lh, find (snd p) lo with
     | Some a, Some b => (ssize a * ssize b)%nat | _, _ => 0%nat end) (list_prod (map fst lx) (map fst lo))) = (total lx * total lo)%nat).
  { induction lx as [|[m u] r IH]; intros Hx; [reflexivity|].
    cbn [map fst list_prod total]. rewrite map_app, list_sum_app.
    rewrite (X lo) with (t := u); [|intros; apply In_find; assumption | apply Hx; left; auto].
    rewrite (IH (fun a b K => Hx a b (or_intror K))). lia. }
  apply Y. intros. apply In_find; assumption.
Qed.
Lemma hderiv_rep : forall h o d, reachable h -> reachable o -> hhist_derivative h o = HOk d ->
  forall lh lo, rep lh h -> rep lo o ->
  exists ld, rep ld d /\ Forall2 (dpick lh lo) (pairs (horder h) (horder o)) ld /\ hdata d = repeat (Some 0) (total ld).
Proof.
  intros h o d H Ho A lh lo Rh Ro. unfold hhist_derivative in A.
  destruct (hderiv_loop h o _ hempty) as [d0|] eqn:E; [|discriminate]. simpl in A. inversion A; subst.
  destruct (rep_hderiv_loop h o lh lo _ [] hempty d0 Rh Ro rep_empty E) as [lx [R F]].
  exists lx. destruct (rep_zero _ _ R) as [R1 R2]. auto.
Qed.
Lemma hist_derivative_size : forall h o d, reachable h -> reachable o -> hhist_derivative h o = HOk d ->
  hsize d = (hsize h * hsize o)%nat /\ horder d = map dname (list_prod (horder h) (horder o)).
Proof.
  intros h o d H Ho A. destruct (reachable_rep h H) as [lh Rh]. destruct (reachable_rep o Ho) as [lo Ro].
  destruct (hderiv_rep h o d H Ho A lh lo Rh Ro) as [ld [Rd [F _]]]. split.
  - unfold hsize. rewrite (rep_size ld d Rd), (rep_size lh h Rh), (rep_size lo o Ro).
    rewrite (dtotal lh lo _ ld F). unfold pairs. rewrite (rep_order lh h Rh), (rep_order lo o Ro).
    apply sum_prod; [apply (rep_nodup lh h Rh) | apply (rep_nodup lo o Ro)].
  - rewrite (rep_order ld d Rd). unfold pairs in F. clear - F.
    induction F as [|p e ps lx [E _] _ IH]; [reflexivity|]. simpl. congruence.
Qed.
Lemma hist_derivative_zero : forall h o d, reachable h -> reachable o -> hhist_derivative h o = HOk d ->
  forall n1 n2 t1 t2, (exists vs, has_var h n1 t1 vs) -> (exists vs, has_var o n2 t2 vs) ->
  exists t, derivative_type t1 t2 = Some t /\ has_var d (dname (n1, n2)) t (repeat (Some 0) (ssize t)).
Proof.
  intros h o d H Ho A n1 n2 t1 t2 [v1 G1] [v2 G2]. destruct (reachable_rep h H) as [lh Rh]. destruct (reachable_rep o Ho) as [lo Ro].
  destruct (hderiv_rep h o d H Ho A lh lo Rh Ro) as [ld [Rd [F Hd]]].
  destruct (rep_get_inv lh h t1 n1 v1 Rh G1) as [o1 [F1 _]]. destruct (rep_get_inv lo o t2 n2 v2 Ro G2) as [o2 [F2 _]].
  assert (I : In (n1, n2) (pairs (horder h) (horder o))).
  { unfold pairs. apply in_prod; [rewrite (rep_order lh h Rh); apply find_In in F1; apply (in_map fst) in F1; exact F1
      | rewrite (rep_order lo o Ro); apply find_In in F2; apply (in_map fst) in F2; exact F2]. }
  destruct (Forall2_In_l _ _ _ _ _ _ F I) as [[k t] [Ie [Ek [u1 [u2 [U1 [U2 D]]]]]]]. simpl in *.
  assert (u1 = t1) by congruence. assert (u2 = t2) by congruence. subst.
  exists t. split; [exact D|].
  assert (Fd : find (dname (n1, n2)) ld = Some t) by (apply In_find; [apply (rep_nodup ld d Rd) | assumption]).
  destruct (rep_get ld d t _ Rd Fd) as [od [_ [G B]]]. unfold has_var. rewrite G. f_equal. rewrite Hd.
  apply repeat_slice. rewrite Hd, repeat_length in B. exact B.
Qed.

Lemma hist_unravel : forall b d d', reachable b -> hhist_derivative b b = HOk d ->
  reachable d' -> horder d' = horder d -> (forall n, find n (htype d') = find n (htype d)) ->
  exists A, hunravel d' b = HOk A /\
    (forall n1 n2 t1 t2 o1 o2 t vs i j, hlookup t1 n1 b = HOk o1 -> hlookup t2 n2 b = HOk o2 ->
      has_var d' (dname (n1, n2)) t vs -> (i < ssize t1)%nat -> (j < ssize t2)%nat ->
      A (o1 + i)%nat (o2 + j)%nat = nth_error vs (i * ssize t2 + j)) /\
    (forall r c, (r < hsize b)%nat -> (c < hsize b)%nat -> exists x, A r c = Some x).
Proof.
  intros b d d' H A H' Ho Ht. destruct (reachable_rep b H) as [lb Rb].
  destruct (hderiv_rep b b d H H A lb lb Rb Rb) as [ld [Rd0 [F _]]].
  assert (Rd : rep ld d').
  { apply layout_rep; [assumption|]. split; [rewrite Ho; apply (rep_order ld d Rd0)|].
    intros n t Hi. rewrite Ht, (rep_type ld d Rd0). apply In_find; [apply (rep_nodup ld d Rd0) | assumption]. }
  destruct (unravel_loop_ok d' b ld lb (pairs (horder b) (horder b)) (fun _ _ => None) Rd Rb) as [M [E P]].
  { intros [n1 n2] Hi. pose proof Hi as Hi0. apply in_prod_iff in Hi. rewrite (rep_order lb b Rb) in Hi. simpl.
    split; [tauto|]. split; [tauto|].
    destruct (Forall2_In_l _ _ _ _ _ _ F Hi0) as [e [Ie [Ee _]]]. rewrite <- Ee. apply in_map. assumption. }
  assert (PP : forall n1 n2 t1 t2 o1 o2 i j, find n1 lb = Some t1 -> find n2 lb = Some t2 ->
    off n1 lb = Some o1 -> off n2 lb = Some o2 -> (i < ssize t1)%nat -> (j < ssize t2)%nat ->
    exists t start, find (dname (n1, n2)) ld = Some t /\ off (dname (n1, n2)) ld = Some start /\
      ssize t = (ssize t1 * ssize t2)%nat /\
      M (o1 + i)%nat (o2 + j)%nat = nth_error (hdata d') (start + (i * ssize t2 + j))).
  { intros n1 n2 t1 t2 o1 o2 i j F1 F2 O1 O2 Hi Hj.
    assert (I : In (n1, n2) (pairs (horder b) (horder b))).
    { unfold pairs. rewrite (rep_order lb b Rb). apply find_In in F1, F2. apply (in_map fst) in F1, F2.
      apply in_prod; assumption. }
    destruct (Forall2_In_l _ _ _ _ _ _ F I) as [[k t] [Ie [Ek [u1 [u2 [U1 [U2 D]]]]]]]. simpl in *.
    assert (u1 = t1) by congruence. assert (u2 = t2) by congruence. subst.
    assert (Fd : find (dname (n1, n2)) ld = Some t) by (apply In_find; [apply (rep_nodup ld d' Rd) | assumption]).
    destruct (off (dname (n1, n2)) ld) as [start|] eqn:Os; [|apply off_find in Os; congruence].
    exists t, start. split; [assumption|]. split; [reflexivity|].
    split; [apply derivative_type_size; assumption|].
    rewrite (P (o1 + i)%nat (o2 + j)%nat (n1, n2) o1 t1 o2 t2 start); auto; try lia.
    f_equal. replace (o1 + i - o1)%nat with i by lia. replace (o2 + j - o2)%nat with j by lia. reflexivity. }
  exists M. split; [exact E|]. split.
  - intros n1 n2 t1 t2 o1 o2 t vs i j L1 L2 G Hi Hj.
    rewrite (rep_lookup lb b _ _ Rb) in L1. rewrite (rep_lookup lb b _ _ Rb) in L2.
    destruct (find n1 lb) as [u1|] eqn:F1; [|discriminate]. destruct (find n2 lb) as [u2|] eqn:F2; [|discriminate].
    destruct (stype_eqb t1 u1) eqn:E1; [|discriminate]. destruct (stype_eqb t2 u2) eqn:E2; [|discriminate].
    apply stype_eqb_eq in E1, E2. subst.
    destruct (off n1 lb) eqn:O1; [|discriminate]. destruct (off n2 lb) eqn:O2; [|discriminate].
    inversion L1; inversion L2; subst.
    destruct (PP n1 n2 u1 u2 o1 o2 i j F1 F2 O1 O2 Hi Hj) as [td [st [Fd [Os [Sz V]]]]].
    destruct (rep_get_inv ld d' t _ vs Rd G) as [st' [Fd' [Os' Ev]]].
    assert (st' = st) by congruence. assert (td = t) by congruence. subst.
    rewrite V, nth_slice. destruct (Nat.ltb_spec (i * ssize u2 + j) (ssize t)) as [K|K]; [reflexivity|].
    exfalso. nia.
  - intros r c Hr Hc. unfold hsize in *. rewrite (rep_size lb b Rb) in Hr, Hc.
    destruct (off_cover lb r (rep_nodup lb b Rb) Hr) as [n1 [o1 [t1 [O1 [F1 B1]]]]].
    destruct (off_cover lb c (rep_nodup lb b Rb) Hc) as [n2 [o2 [t2 [O2 [F2 B2]]]]].
    destruct (PP n1 n2 t1 t2 o1 o2 (r - o1)%nat (c - o2)%nat F1 F2 O1 O2) as [td [st [Fd [Os [Sz V]]]]]; [lia | lia |].
    replace (o1 + (r - o1))%nat with r in V by lia. replace (o2 + (c - o2))%nat with c in V by lia.
    rewrite V. destruct (nth_error (hdata d') (st + ((r - o1) * ssize t2 + (c - o2)))) as [x|] eqn:Ex; [eauto|].
    exfalso. apply nth_error_None in Ex. rewrite (rep_size ld d' Rd) in Ex.
    pose proof (off_bound ld _ st td Os Fd) as Bd. nia.
Qed.
Lemma hist_formatted : forall ts h, reachable h ->
  exists names, formatted_names ts h = HOk names /\ length names = hsize h.
Proof.
  intros ts h H. destruct (reachable_rep h H) as [l R].
  destruct (formatted_loop ts h l R l []) as [r [E L]].
  { intros. apply In_find; [apply (rep_nodup l h R) | assumption]. }
  exists r. unfold formatted_names. rewrite (rep_order l h R). split; [exact E|].
  unfold hsize. rewrite (rep_size l h R). exact L.
Qed.

(** ** reorder *)
Lemma hist_reorder_raw : forall h, reachable h -> forall vars, NoDup vars ->
  (forall n, In n vars <-> In n (horder h)) ->
  exists h' s, hreorder vars h = HOk h' /\ horder h' = vars /\
    hsubset vars h = HOk s /\ hdata h' = hdata s /\ hloc h' = insert_all (hloc s) (hloc h) /\
    forall n, find n (hloc h') = find n (hloc h).
Proof.
  intros h H vars Hn Hi. destruct (reachable_rep h H) as [l R].
  destruct (hist_subset h H vars Hn (fun n => proj1 (Hi n))) as [s [A [Ho _]]].
  unfold hreorder. rewrite A. simpl.
  destruct (rep_subset_loop h l vars [] hempty s R rep_empty A) as [lx [P [R' D]]]. simpl in R', D.
  assert (Sz : hsize s = hsize h).
  { unfold hsize. rewrite (rep_size lx s R'), (rep_size l h R).
    assert (Pl : Permutation lx l).
    { apply NoDup_Permutation.
      - apply (NoDup_map_inv fst). apply (rep_nodup lx s R').
      - apply (NoDup_map_inv fst). apply (rep_nodup l h R).
      - intros [n t]. split; intros K.
        + apply find_In. apply (proj2 P). assumption.
        + assert (F : find n l = Some t) by (apply In_find; [apply (rep_nodup l h R) | assumption]).
          apply find_In. rewrite (find_picks l lx vars n Hn P); [assumption|].
          apply Hi. rewrite (rep_order l h R). apply (in_map fst) in K. exact K. }
    clear - Pl. induction Pl as [|[a t] x y _ IH|[a t] [b u] x|x y z _ IH1 _ IH2]; simpl; try lia. }
  rewrite Sz, Nat.leb_refl.
  eexists. exists s. split; [reflexivity|]. simpl. split; [exact Ho|]. split; [reflexivity|].
  split; [rewrite <- Sz; unfold hsize; apply firstn_all|]. split; [reflexivity|].
  intros n. rewrite find_insert_all. destruct (find n (hloc h)) eqn:F; [reflexivity|].
  rewrite (rep_loc lx s R'). apply off_find. apply find_none_iff.
  rewrite (proj1 P). intros K. apply Hi in K. rewrite (rep_loc l h R) in F. apply off_find in F.
  apply find_none_iff in F. apply F. rewrite <- (rep_order l h R). exact K.
Qed.

Lemma hderiv_loop_ok : forall h o lh lo ps la acc, rep lh h -> rep lo o -> rep la acc ->
  NoDup (map dname ps) -> (forall p, In p ps -> find (dname p) la = None) ->
  (forall p, In p ps -> exists t1 t2 t, find (fst p) lh = Some t1 /\ find (snd p) lo = Some t2 /\ derivative_type t1 t2 = Some t) ->
  exists d, hderiv_loop h o ps acc = HOk d.
Proof.
  intros h o lh lo ps. induction ps as [|p r IH]; intros la acc Rh Ro Ra Nd Nf Ht; simpl; [eauto|].
  unfold htype_at. rewrite (rep_type lh h Rh), (rep_type lo o Ro).
  destruct (Ht p (or_introl eq_refl)) as [t1 [t2 [t [F1 [F2 D]]]]]. rewrite F1, F2. simpl. rewrite D.
  simpl in Nd. inversion Nd as [|? ? Ni Nd']; subst.
  destruct (hadd (dname p) t acc) as [a1|] eqn:E.
  - simpl. destruct (rep_add la acc _ t a1 Ra E) as [_ [R1 _]].
    apply (IH _ a1 Rh Ro R1 Nd').
    + intros q Hq. rewrite find_app, Nf by (right; auto). simpl.
      destruct (String.eqb_spec (dname q) (dname p)) as [X|X]; [|reflexivity].
      exfalso. apply Ni. rewrite <- X. apply in_map. assumption.
    + intros q Hq. apply Ht. right; auto.
  - exfalso. unfold hadd in E. rewrite (rep_contains la acc _ Ra), Nf in E by (left; auto). discriminate.
Qed.
Lemma hist_derivative_ok : forall h o, reachable h -> reachable o ->
  NoDup (map dname (list_prod (horder h) (horder o))) ->
  (forall n1 n2 t1 t2, find n1 (htype h) = Some t1 -> find n2 (htype o) = Some t2 -> derivative_type t1 t2 <> None) ->
  exists d, hhist_derivative h o = HOk d.
Proof.
  intros h o H Ho Nd Ht. destruct (reachable_rep h H) as [lh Rh]. destruct (reachable_rep o Ho) as [lo Ro].
  unfold hhist_derivative.
  destruct (hderiv_loop_ok h o lh lo (pairs (horder h) (horder o)) [] hempty Rh Ro rep_empty Nd) as [d E].
  - reflexivity.
  - intros [n1 n2] Hi. apply in_prod_iff in Hi. rewrite (rep_order lh h Rh), (rep_order lo o Ro) in Hi.
    destruct Hi as [I1 I2]. destruct (In_off lh n1 I1) as [_ [t1 [_ F1]]]. destruct (In_off lo n2 I2) as [_ [t2 [_ F2]]].
    simpl. destruct (derivative_type t1 t2) as [t|] eqn:D; [eauto 8|].
    exfalso. apply (Ht n1 n2 t1 t2); [rewrite (rep_type lh h Rh) | rewrite (rep_type lo o Ro) |]; assumption.
  - rewrite E. simpl. eauto.
Qed.
