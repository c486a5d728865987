(** Proofs about arrays passed from Python. *)
From Coq Require Import ZArith List Arith Lia FinFun.
From Verif Require Import Base ArrModel ArrSpec.
From Coq Require Import List.
Import ListNotations.

Lemma nth_error_same : forall {A} (l r : list A), (forall k, nth_error l k = nth_error r k) -> l = r.
Proof.
  induction l as [|x l IH]; intros [|y r] H; [reflexivity|specialize (H 0%nat); discriminate|specialize (H 0%nat); discriminate|].
  pose proof (H 0%nat) as H0. inversion H0; subst. f_equal. apply IH. intro k. exact (H (S k)).
Qed.
Lemma all_some_length : forall {A} (l : list (option A)) r, all_some l = Some r -> length r = length l.
Proof.
  induction l as [|x l IH]; intros r H; cbn in H; [now inversion H|].
  destruct x; [|discriminate]. destruct (all_some l) eqn:E; [|discriminate]. inversion H; subst; cbn. f_equal. now apply IH.
Qed.
Lemma all_some_nth : forall {A} (l : list (option A)) r, all_some l = Some r -> forall k x, nth_error l k = Some x -> exists y, x = Some y /\ nth_error r k = Some y.
Proof.
  induction l as [|x l IH]; intros r H k y Hk; [destruct k; discriminate|]. cbn in H.
  destruct x as [a|]; [|discriminate]. destruct (all_some l) as [q|] eqn:E; [|discriminate]. inversion H; subst.
  destruct k; cbn in *; [inversion Hk; subst; eauto|]. now apply (IH q).
Qed.
Lemma all_some_intro : forall {A} (l : list (option A)) r, length r = length l -> (forall k x, nth_error r k = Some x -> nth_error l k = Some (Some x)) -> all_some l = Some r.
Proof.
  induction l as [|x l IH]; intros [|y r] HL H; try discriminate; [reflexivity|]. cbn.
  specialize (H 0%nat y eq_refl) as H0; cbn in H0. inversion H0; subst.
  rewrite (IH r); [reflexivity|now inversion HL|]. intros k z Hk. now apply (H (S k)).
Qed.
Lemma all_some_none : forall {A} (l : list (option A)) k, nth_error l k = Some None -> all_some l = None.
Proof.
  induction l as [|x l IH]; intros [|k] H; try discriminate; cbn in *; [inversion H; reflexivity|].
  rewrite (IH k H). now destruct x.
Qed.
Lemma all_some_firstn : forall {A} (l : list (option A)) r n, all_some l = Some r -> all_some (firstn n l) = Some (firstn n r).
Proof.
  induction l as [|x l IH]; intros r n H; cbn in H; [inversion H; subst; now rewrite !firstn_nil|].
  destruct x; [|discriminate]. destruct (all_some l) eqn:E; [|discriminate]. inversion H; subst.
  destruct n; [reflexivity|]. cbn. now rewrite (IH l0 n eq_refl).
Qed.

(** ** Indices *)
Lemma flat_map_const_length : forall {A B} (f : A -> list B) l n, (forall a, length (f a) = n) -> length (flat_map f l) = (length l * n)%nat.
Proof. induction l as [|a l IH]; intros n H; [reflexivity|]. cbn. rewrite app_length, H, (IH n H). lia. Qed.
Lemma indices_length : forall s, length (indices s) = total s.
Proof.
  induction s as [|n s IH]; [reflexivity|]. cbn [indices]. rewrite flat_map_const_length with (n := total s).
  - now rewrite seq_length.
  - intro a. now rewrite map_length.
Qed.
Lemma nth_flat_map : forall {A B} (f : A -> list B) n l i j a, (forall a, length (f a) = n) -> nth_error l i = Some a -> (j < n)%nat -> nth_error (flat_map f l) (i * n + j) = nth_error (f a) j.
Proof.
  induction l as [|x l IH]; intros i j a HL Hi Hj; [destruct i; discriminate|]. destruct i; cbn in *.
  - inversion Hi; subst. rewrite nth_error_app1; [reflexivity|now rewrite HL].
  - rewrite nth_error_app2; rewrite HL; [|lia]. replace (n + i * n + j - n)%nat with (i * n + j)%nat by lia. now apply IH.
Qed.
Lemma position_lt : forall s ix, Forall2 lt ix s -> (position s ix < total s)%nat.
Proof.
  induction s as [|n s IH]; intros ix H; inversion H; subst; [cbn; lia|]. cbn. specialize (IH _ H4). unfold total in *. nia.
Qed.
Lemma nth_seq : forall n k i, (k < n)%nat -> nth_error (seq i n) k = Some (i + k)%nat.
Proof. induction n; intros k i H; [lia|]. destruct k; cbn; [f_equal; lia|]. rewrite IHn; [f_equal; lia|lia]. Qed.
Lemma indices_nth : forall s ix, Forall2 lt ix s -> nth_error (indices s) (position s ix) = Some ix.
Proof.
  induction s as [|n s IH]; intros ix H; inversion H; subst; [reflexivity|]. cbn [indices position]. fold (total s).
  rewrite nth_flat_map with (n := total s) (a := x); [|intro; now rewrite map_length, indices_length|now rewrite nth_seq|now apply position_lt].
  now apply map_nth_error, IH.
Qed.
Lemma indices_in : forall s ix, In ix (indices s) -> Forall2 lt ix s.
Proof.
  induction s as [|n s IH]; intros ix H; cbn in H; [destruct H as [<-|[]]; constructor|].
  apply in_flat_map in H as (i & Hi & H). apply in_map_iff in H as (r & <- & H). apply in_seq in Hi. constructor; [lia|auto].
Qed.
Lemma indices_position : forall s k ix, nth_error (indices s) k = Some ix -> Forall2 lt ix s /\ position s ix = k.
Proof.
  intros s k ix H. assert (F : Forall2 lt ix s) by (eapply indices_in, nth_error_In; eauto). split; [exact F|].
  assert (ND : NoDup (indices s)).
  { clear. induction s as [|n s IH]; [repeat constructor; intros []|]. cbn.
    generalize 0%nat as b. induction n as [|n IHn]; intro b; [constructor|]. cbn [seq flat_map].
    assert (D : forall b c n, (b < c)%nat -> forall x, In x (map (cons b) (indices s)) -> ~ In x (flat_map (fun i => map (cons i) (indices s)) (seq c n))).
    { clear. intros b c n Hb x H1 H2. apply in_map_iff in H1 as (r & <- & _). apply in_flat_map in H2 as (i & Hi & H2).
      apply in_map_iff in H2 as (q & E & _). inversion E; subst. apply in_seq in Hi. lia. }
    specialize (D b (S b) n (Nat.lt_succ_diag_r b)).
    assert (N1 : NoDup (map (cons b) (indices s))) by (apply FinFun.Injective_map_NoDup; [intros x y E; now inversion E|exact IH]).
    revert N1 D. generalize (map (cons b) (indices s)) as l. induction l as [|x l IHl]; intros N1 D; cbn; [apply IHn|].
    inversion N1; subst. constructor.
    - rewrite in_app_iff. intros [H|H]; [auto|]. exact (D x (or_introl eq_refl) H).
    - apply IHl; [assumption|]. intros y Hy. apply D. now right. }
  pose proof (indices_nth s ix F) as P. apply (proj1 (NoDup_nth_error _) ND).
  - apply nth_error_Some. now rewrite P.
  - now rewrite P, H.
Qed.

Lemma contents_shows : forall m a l, contents m a = Some l <-> shows m a l.
Proof.
  intros m a l. unfold contents, shows. split.
  - intro H. split.
    + apply all_some_length in H. rewrite map_length, indices_length in H. exact H.
    + intros ix F. destruct (all_some_nth _ _ H (position (ar_shape a) ix) (entry m a ix)) as (y & E & N).
      { unfold entry. apply (map_nth_error (fun ix => rd m (ar_buf a) (ar_off a + shift (ar_strides a) ix))). now apply indices_nth. }
      exists y. now split.
  - intros (HL & H). apply all_some_intro; [now rewrite map_length, indices_length|]. intros k x Hk.
    assert (K : (k < length (indices (ar_shape a)))%nat).
    { rewrite indices_length. unfold total. rewrite <- HL. apply nth_error_Some. now rewrite Hk. }
    destruct (nth_error (indices (ar_shape a)) k) as [ix|] eqn:E; [|apply nth_error_None in E; lia].
    destruct (indices_position _ _ _ E) as (F & <-). destruct (H ix F) as (y & E1 & E2). rewrite Hk in E2. inversion E2; subst.
    rewrite (map_nth_error (fun ix => rd m (ar_buf a) (ar_off a + shift (ar_strides a) ix)) _ _ E). f_equal. exact E1.
Qed.

(** ** Contiguity *)
Definition kept (a : arr) : bool := andb (is_double (ar_dtype a)) (c_order a).
Lemma strides_ok_shift : forall s t ix, strides_ok s t = true -> Forall2 lt ix s -> shift t ix = Z.of_nat (position s ix).
Proof.
  induction s as [|n s IH]; intros t ix H F; inversion F; subst; [destruct t; reflexivity|]. destruct t as [|k t]; [discriminate|].
  cbn in H. apply andb_prop in H as (H1 & H2). cbn. rewrite (IH t _ H2 H4). apply Bool.orb_true_iff in H1 as [H1|H1].
  - apply Nat.eqb_eq in H1. subst. assert (x = 0)%nat by lia. subst. lia.
  - apply Z.eqb_eq in H1. subst. fold (total s). lia.
Qed.
Lemma zero_axis : forall s ix, existsb (Nat.eqb 0) s = true -> ~ Forall2 lt ix s.
Proof.
  induction s as [|n s IH]; intros ix H F; [discriminate|]. inversion F; subst. cbn in H. apply Bool.orb_true_iff in H as [H|H].
  - destruct n; [lia|discriminate].
  - exact (IH _ H H4).
Qed.
Lemma kept_plain : forall a, kept a = true -> plain a.
Proof.
  intros a H. unfold kept in H. apply andb_prop in H as (H1 & H2). split; [destruct (ar_dtype a); [reflexivity|discriminate|discriminate]|].
  intros ix F. unfold c_order in H2. apply Bool.orb_true_iff in H2 as [H2|H2]; [exfalso; exact (zero_axis _ _ H2 F)|now apply strides_ok_shift].
Qed.
Lemma strides_ok_complete : forall s t, length t = length s -> existsb (Nat.eqb 0) s = false -> (forall ix, Forall2 lt ix s -> shift t ix = Z.of_nat (position s ix)) -> strides_ok s t = true.
Proof.
  induction s as [|n s IH]; intros [|k t] HL HZ H; try discriminate; [reflexivity|]. cbn in HL, HZ. apply Bool.orb_false_iff in HZ as (HZ1 & HZ2).
  assert (Hn : (0 < n)%nat) by (destruct n; [discriminate|lia]).
  assert (Z0 : Forall2 lt (map (fun _ => 0%nat) s) s).
  { clear -HZ2. induction s as [|j s IHs]; [constructor|]. cbn in *. apply Bool.orb_false_iff in HZ2 as (A & B). constructor; [destruct j; [discriminate|lia]|auto]. }
  assert (P0 : position s (map (fun _ => 0%nat) s) = 0%nat) by (clear; induction s; cbn; [reflexivity|exact IHs]).
  assert (S0 : forall t, shift t (map (fun _ => 0%nat) s) = 0%Z) by (clear; induction s; intros [|k t]; cbn; try reflexivity; rewrite IHs; lia).
  cbn. apply andb_true_intro. split.
  - apply Bool.orb_true_iff. destruct (Nat.eq_dec n 1) as [->|N]; [now left|right]. apply Z.eqb_eq.
    specialize (H (1%nat :: map (fun _ => 0%nat) s)). cbn in H. rewrite P0, S0 in H. fold (total s) in H. specialize (H ltac:(constructor; [lia|exact Z0])). lia.
  - apply IH; [now inversion HL|exact HZ2|]. intros ix F. specialize (H (0%nat :: ix)). cbn in H. specialize (H ltac:(constructor; assumption)). lia.
Qed.
Lemma plain_kept : forall a, length (ar_strides a) = length (ar_shape a) -> plain a -> kept a = true.
Proof.
  intros a HL (D & H). unfold kept, c_order. rewrite D. cbn [is_double andb]. destruct (existsb (Nat.eqb 0) (ar_shape a)) eqn:E; [reflexivity|]. cbn [orb].
  now apply strides_ok_complete.
Qed.
Lemma plain_pread : forall m a, plain a -> pread m (arr2ptr a) (total (ar_shape a)) = contents m a.
Proof.
  intros m a (_ & H). unfold pread, contents. f_equal. cbn.
  apply nth_error_same. intro k. destruct (nth_error (indices (ar_shape a)) k) as [ix|] eqn:E.
  - rewrite (map_nth_error (fun ix => rd m (ar_buf a) (ar_off a + shift (ar_strides a) ix)) _ _ E).
    destruct (indices_position _ _ _ E) as (F & <-). rewrite (map_nth_error _ _ _ (nth_seq _ _ 0%nat (position_lt _ _ F))). cbn. now rewrite (H ix F).
  - transitivity (@None (option R)); [|symmetry]; apply nth_error_None; rewrite map_length; [rewrite seq_length, <- indices_length|]; now apply nth_error_None.
Qed.

(** ** Memory *)
Lemma contents_same : forall m m' a, nth_error m' (ar_buf a) = nth_error m (ar_buf a) -> contents m' a = contents m a.
Proof. intros m m' a H. unfold contents. f_equal. apply map_ext. intro ix. unfold rd. now rewrite H. Qed.
Lemma contents_app : forall m e a l, contents m a = Some l -> (ar_buf a < length m)%nat -> contents (m ++ e) a = Some l.
Proof. intros m e a l H L. rewrite <- H. apply contents_same. now apply nth_error_app1. Qed.
Lemma put_length : forall m b B, (b < length m)%nat -> length (put m b B) = length m.
Proof. intros m b B H. unfold put. rewrite app_length, firstn_length. cbn [length]. rewrite skipn_length. lia. Qed.
Lemma put_same : forall m b B, (b < length m)%nat -> nth_error (put m b B) b = Some B.
Proof. intros m b B H. unfold put. rewrite nth_error_app2; rewrite firstn_length, Nat.min_l; try lia. now rewrite Nat.sub_diag. Qed.
Lemma nth_error_firstn_lt : forall {A} (l : list A) n k, (k < n)%nat -> nth_error (firstn n l) k = nth_error l k.
Proof. induction l; intros [|n] [|k] H; try lia; try reflexivity. cbn. apply IHl. lia. Qed.
Lemma nth_error_skipn_add : forall {A} (l : list A) n k, nth_error (skipn n l) k = nth_error l (n + k).
Proof. induction l; intros [|n] k; try reflexivity; [now destruct k|]. cbn. apply IHl. Qed.
Lemma put_other : forall m b B c, (b < length m)%nat -> c <> b -> nth_error (put m b B) c = nth_error m c.
Proof.
  intros m b B c H N. unfold put. destruct (Nat.lt_ge_cases c b) as [L|L].
  - rewrite nth_error_app1; [|rewrite firstn_length; lia]. now apply nth_error_firstn_lt.
  - rewrite nth_error_app2; rewrite firstn_length, Nat.min_l; try lia. destruct (c - b)%nat eqn:E; [lia|]. cbn [nth_error]. rewrite nth_error_skipn_add. f_equal. lia.
Qed.
Lemma free_length : forall b m, length (free b m) = length m.
Proof. intros b m. unfold free. destruct (nth_error m b) eqn:E; [|reflexivity]. apply put_length. apply nth_error_Some. now rewrite E. Qed.
Lemma free_other : forall b m c, c <> b -> nth_error (free b m) c = nth_error m c.
Proof. intros b m c N. unfold free. destruct (nth_error m b) eqn:E; [|reflexivity]. apply put_other; [|exact N]. apply nth_error_Some. now rewrite E. Qed.
Lemma free_same : forall b m B, nth_error m b = Some B -> nth_error (free b m) b = Some (mkBuf (bf_data B) false).
Proof. intros b m B H. unfold free. rewrite H. apply put_same. apply nth_error_Some. now rewrite H. Qed.
Lemma frees_length : forall t m, length (fold_right free m t) = length m.
Proof. induction t; intro m; [reflexivity|]. cbn. rewrite free_length. apply IHt. Qed.
Lemma frees_other : forall t m c, ~ In c t -> nth_error (fold_right free m t) c = nth_error m c.
Proof. induction t; intros m c N; [reflexivity|]. cbn in *. rewrite free_other; [apply IHt; tauto|]. intro E. subst. tauto. Qed.
Lemma frees_same : forall t m c B, In c t -> nth_error m c = Some B -> nth_error (fold_right free m t) c = Some (mkBuf (bf_data B) false).
Proof.
  induction t as [|b t IH]; intros m c B I H; [destruct I|]. cbn. destruct (Nat.eq_dec c b) as [->|N].
  - destruct (in_dec Nat.eq_dec b t) as [J|J].
    + now rewrite (free_same b _ _ (IH m b B J H)).
    + apply free_same. rewrite frees_other; assumption.
  - rewrite free_other; [|exact N]. apply IH; [destruct I; [congruence|assumption]|exact H].
Qed.
(** freeing what was added *)
Lemma frees_added : forall m e, same_memory m (fold_right free (m ++ e) (seq (length m) (length e))).
Proof.
  intros m e. exists (map (fun B => mkBuf (bf_data B) false) e). split; [|apply Forall_forall; intros b H; apply in_map_iff in H as (B & <- & _); reflexivity].
  apply nth_error_same. intro k. destruct (Nat.lt_ge_cases k (length m)) as [L|L].
  - rewrite frees_other; [|rewrite in_seq; lia]. now rewrite !nth_error_app1.
  - rewrite (nth_error_app2 m); [|exact L]. destruct (nth_error e (k - length m)) as [B|] eqn:E.
    + rewrite (map_nth_error _ _ _ E). apply frees_same.
      * apply in_seq. assert (k - length m < length e)%nat by (apply nth_error_Some; now rewrite E). lia.
      * now rewrite nth_error_app2.
    + transitivity (@None buf); [|symmetry]; apply nth_error_None; [rewrite frees_length, app_length|rewrite map_length]; apply nth_error_None in E; lia.
Qed.
Lemma same_memory_contents : forall m m' a l, same_memory m m' -> (ar_buf a < length m)%nat -> contents m a = Some l -> contents m' a = Some l.
Proof. intros m m' a l (d & -> & _) L H. now apply contents_app. Qed.

(** ** Conversion *)
Lemma c_strides_ok : forall s, strides_ok s (c_strides s) = true.
Proof. induction s; [reflexivity|]. cbn. rewrite Z.eqb_refl, Bool.orb_true_r. exact IHs. Qed.
Lemma c_strides_plain : forall b s, plain (mkArr b 0 s (c_strides s) DDouble).
Proof. intros b s. apply kept_plain. unfold kept, c_order. cbn. now rewrite c_strides_ok, Bool.orb_true_r. Qed.
(** a block that holds exactly the entries of an array in C order *)
Lemma fresh_contents : forall m l s, length l = total s -> contents (m ++ [mkBuf l true]) (mkArr (length m) 0 s (c_strides s) DDouble) = Some l.
Proof.
  intros m l s HL. rewrite <- plain_pread; [|apply c_strides_plain]. cbn [ar_shape]. unfold pread, arr2ptr. cbn [fst snd ar_buf ar_off].
  apply all_some_intro; [now rewrite map_length, seq_length|]. intros k x Hk.
  assert (k < total s)%nat by (rewrite <- HL; apply nth_error_Some; now rewrite Hk).
  rewrite (map_nth_error _ _ _ (nth_seq _ _ 0%nat H)). f_equal. unfold rd. rewrite nth_error_app2, Nat.sub_diag; [|lia]. cbn [nth_error bf_live bf_data].
  replace (0 <=? 0 + Z.of_nat (0 + k))%Z with true by (symmetry; apply Z.leb_le; lia). cbn. replace (Z.to_nat _) with k by lia. exact Hk.
Qed.
Definition converted (m m' : amem) (a c : arr) : Prop :=
  (kept a = true /\ c = a) \/ (kept a = false /\ (length m <= ar_buf c < length m')%nat /\ ar_shape c = ar_shape a /\ plain c
                              /\ exists B, nth_error m' (ar_buf c) = Some B /\ length (bf_data B) = total (ar_shape a) /\ ar_off c = 0%Z).
Lemma converted_shape : forall m m' a c, converted m m' a c -> ar_shape c = ar_shape a /\ plain c.
Proof. intros m m' a c [(K & ->)|(K & _ & S & P & _)]; [split; [reflexivity|now apply kept_plain]|now split]. Qed.
Lemma contents_length : forall m a l, contents m a = Some l -> length l = total (ar_shape a).
Proof. intros m a l H. apply all_some_length in H. now rewrite map_length, indices_length in H. Qed.
Lemma as_c_spec : forall m a x, contents m a = Some x -> (ar_buf a < length m)%nat ->
  exists e c, as_c m a = Some (m ++ e, c, seq (length m) (length e)) /\ converted m (m ++ e) a c /\ contents (m ++ e) c = Some x.
Proof.
  intros m a x H L. unfold as_c. fold (kept a). destruct (kept a) eqn:K.
  - exists [], a. cbn. rewrite app_nil_r. split; [reflexivity|]. split; [now left|exact H].
  - rewrite H. exists [mkBuf x true], (mkArr (length m) 0 (ar_shape a) (c_strides (ar_shape a)) DDouble). cbn [length seq]. split; [reflexivity|]. split.
    + right. split; [exact K|]. rewrite app_length. cbn [ar_buf ar_shape ar_off length]. split; [lia|]. split; [reflexivity|]. split; [apply c_strides_plain|].
      exists (mkBuf x true). rewrite nth_error_app2, Nat.sub_diag; [|lia]. split; [reflexivity|]. split; [|reflexivity]. now apply contents_length in H.
    + apply fresh_contents. now apply contents_length in H.
Qed.
Lemma seq_split_app : forall b n k, seq b n ++ seq (b + n) k = seq b (n + k).
Proof. intros. now rewrite seq_app. Qed.
Lemma converted_app : forall m m' e a c, converted m m' a c -> converted m (m' ++ e) a c.
Proof.
  intros m m' e a c [H|(K & L & S & P & B & HB & H)]; [now left|]. right. split; [exact K|]. split; [rewrite app_length; lia|]. split; [exact S|]. split; [exact P|].
  exists B. split; [|exact H]. rewrite nth_error_app1; [exact HB|lia].
Qed.
Lemma converted_wider : forall m e m' a c, (ar_buf a < length m)%nat -> converted (m ++ e) m' a c -> converted m m' a c.
Proof. intros m e m' a c L [H|(K & R & H)]; [now left|]. right. rewrite app_length in R. split; [exact K|]. split; [lia|exact H]. Qed.
Lemma contents_in : forall m a l, contents m a = Some l -> total (ar_shape a) <> 0%nat -> (ar_buf a < length m)%nat.
Proof.
  intros m a l H N. apply nth_error_Some. intro E. assert (Hc : contents m a = None); [|congruence]. unfold contents.
  rewrite <- indices_length in N. destruct (indices (ar_shape a)) as [|ix r]; [now elim N|]. cbn. unfold rd. now rewrite E.
Qed.
Definition good (m : amem) (a : arr) (x : list R) : Prop := contents m a = Some x /\ (ar_buf a < length m)%nat.
Lemma good_app : forall m e a x, good m a x -> good (m ++ e) a x.
Proof. intros m e a x (H & L). split; [now apply contents_app|]. rewrite app_length. lia. Qed.
Lemma as_c_all_spec : forall args m xs, Forall2 (good m) args xs ->
  exists e l, as_c_all m args = Some (m ++ e, l, seq (length m) (length e))
              /\ Forall2 (converted m (m ++ e)) args l /\ Forall2 (fun c x => contents (m ++ e) c = Some x /\ (ar_buf c < length (m ++ e))%nat) l xs
              /\ (NoDup (map ar_buf args) -> NoDup (map ar_buf l)).
Proof.
  induction args as [|a args IH]; intros m xs F; inversion F; subst.
  - exists [], []. cbn. rewrite app_nil_r. repeat split; constructor.
  - destruct H1 as (H1 & L1). destruct (as_c_spec m a y H1 L1) as (e & c & E & C & X).
    assert (F2 : Forall2 (good (m ++ e)) args l').
    { clear - H3. induction H3; constructor; [now apply good_app|assumption]. }
    destruct (IH (m ++ e) l' F2) as (e2 & l & E2 & C2 & X2 & N2). exists (e ++ e2), (c :: l). rewrite app_assoc.
    assert (Lc : (ar_buf c < length (m ++ e))%nat).
    { destruct C as [(_ & ->)|(_ & R & _)]; [rewrite app_length; lia|lia]. }
    assert (Bl : Forall (fun a => (ar_buf a < length m)%nat) args).
    { clear - H3. induction H3; constructor; [apply H|assumption]. }
    split; [|split; [|split]].
    + cbn. rewrite E, E2. f_equal. f_equal. rewrite app_length, app_length. now rewrite <- seq_split_app.
    + constructor; [now apply converted_app|]. clear - C2 Bl. induction C2; [constructor|]. inversion Bl; subst. constructor; [|now apply IHC2].
      rewrite <- app_assoc in *. rewrite app_assoc in H |- *. now apply converted_wider with (e := e).
    + constructor; [|exact X2]. split; [now apply contents_app|]. rewrite app_length. lia.
    + intro N. cbn in N |- *. inversion N; subst. constructor; [|now apply N2]. intro I.
      assert (G : forall b, In b (map ar_buf l) -> In b (map ar_buf args) \/ (length (m ++ e) <= b)%nat).
      { clear - C2. induction C2; intros b I; [destruct I|]. cbn in *. destruct I as [<-|I].
        - destruct H as [(_ & ->)|(_ & R & _)]; [left; now left|right; lia].
        - destruct (IHC2 b I); [left; now right|now right]. }
      destruct (G _ I) as [J|J]; [|lia]. destruct C as [(_ & ->)|(_ & R & _)]; [contradiction|].
      apply in_map_iff in J as (a' & Ea & Ia). rewrite Forall_forall in Bl. specialize (Bl _ Ia). lia.
Qed.

(** ** Reading *)
Lemma good_holds : forall m a x, holds m a x -> good m a x.
Proof. intros m a x (H & L & _). split; [now apply contents_shows|exact L]. Qed.
Lemma firstn_seq : forall n k b, (n <= k)%nat -> firstn n (seq b k) = seq b n.
Proof. induction n; intros k b H; [reflexivity|]. destruct k; [lia|]. cbn. f_equal. apply IHn. lia. Qed.
Lemma pread_firstn : forall m a x n, plain a -> contents m a = Some x -> (n <= total (ar_shape a))%nat -> pread m (arr2ptr a) n = Some (firstn n x).
Proof.
  intros m a x n P H L. rewrite <- plain_pread in H; [|exact P]. unfold pread in *. rewrite <- (firstn_seq n (total (ar_shape a)) 0 L), <- firstn_map.
  now apply all_some_firstn.
Qed.
Lemma pread_all : forall m a x, plain a -> contents m a = Some x -> pread m (arr2ptr a) (total (ar_shape a)) = Some x.
Proof. intros m a x P H. now rewrite plain_pread. Qed.
Lemma converted_all : forall m m' args l, Forall2 (converted m m') args l -> map ar_shape l = map ar_shape args /\ Forall plain l /\ length l = length args.
Proof.
  intros m m' args l F. induction F; [repeat split; constructor|]. destruct (converted_shape _ _ _ _ H) as (S & P). destruct IHF as (A & B & C).
  cbn. rewrite S, A, C. repeat split. now constructor.
Qed.
Lemma preads_ok : forall m l xs ns, Forall2 (fun c x => contents m c = Some x /\ (ar_buf c < length m)%nat) l xs -> Forall plain l ->
  Forall2 (fun c n => (n <= total (ar_shape c))%nat) l ns -> preads m (combine l ns) = Some (map (fun p => firstn (fst p) (snd p)) (combine ns xs)).
Proof.
  intros m l xs ns F. revert ns. induction F as [|c x l xs (H & _) F IH]; intros ns P G; inversion G; subst; [reflexivity|]. inversion P; subst.
  cbn. rewrite (pread_firstn m c x y), (IH l'); auto.
Qed.
Lemma call_spec : forall {A} (f : list (list R) -> A) args m xs, Forall2 (fun p x => holds m (fst p) x /\ (snd p <= length x)%nat) args xs ->
  exists m', py_call f args m = Done (f (map (fun p => firstn (fst p) (snd p)) (combine (map snd args) xs))) m' /\ same_memory m m'.
Proof.
  intros A f args m xs F. assert (G : Forall2 (good m) (map fst args) xs).
  { induction F; constructor; [apply good_holds, H|assumption]. }
  destruct (as_c_all_spec _ _ _ G) as (e & l & E & C & X & _). unfold py_call. rewrite E.
  destruct (converted_all _ _ _ _ C) as (S & P & L). rewrite (preads_ok _ _ xs); [|exact X|exact P|].
  - exists (fold_right free (m ++ e) (seq (length m) (length e))). split; [reflexivity|apply frees_added].
  - clear - F S. revert l S. induction F as [|p x args xs ((H & _) & N) F IH]; intros [|c l] S; try discriminate; constructor.
    + cbn in S. inversion S. rewrite H1. destruct H as (H & _). unfold total. now rewrite <- H.
    + apply IH. now inversion S.
Qed.
Lemma call_exact : forall {A} (f : list (list R) -> A) args m xs, Forall2 (fun p x => holds m (fst p) x /\ snd p = length x) args xs ->
  exists m', py_call f args m = Done (f xs) m' /\ same_memory m m'.
Proof.
  intros A f args m xs F. destruct (call_spec f args m xs) as (m' & E & S).
  - induction F; constructor; [destruct H; split; [assumption|lia]|assumption].
  - exists m'. split; [|exact S]. rewrite E. do 2 f_equal. clear - F. induction F as [|p x args xs (_ & H) F IH]; [reflexivity|].
    cbn. rewrite IH, H. now rewrite firstn_all.
Qed.
Lemma pread_short : forall m a n B, nth_error m (ar_buf a) = Some B -> (ar_off a + Z.of_nat (total (ar_shape a)) = Z.of_nat (length (bf_data B)))%Z -> (total (ar_shape a) < n)%nat ->
  pread m (arr2ptr a) n = None.
Proof.
  intros m a n B HB HE L. unfold pread. apply (all_some_none _ (total (ar_shape a))). rewrite (map_nth_error _ _ _ (nth_seq _ _ 0%nat L)). f_equal.
  cbn. unfold rd. rewrite HB. destruct (bf_live B && _)%bool; [|reflexivity]. apply nth_error_None. lia.
Qed.
Lemma call_short : forall {A} (f : list (list R) -> A) args m xs a n, Forall2 (holds m) (map fst args) xs -> In (a, n) args ->
  (fold_right Nat.mul 1 (ar_shape a) < n)%nat -> (plain a -> ends_block m a) -> py_call f args m = Wild.
Proof.
  intros A f args m xs a n F I L EB. assert (G : Forall2 (good m) (map fst args) xs).
  { clear - F. induction F; constructor; [now apply good_holds|assumption]. }
  destruct (as_c_all_spec _ _ _ G) as (e & l & E & C & X & _). unfold py_call. rewrite E.
  replace (preads (m ++ e) (combine l (map snd args))) with (@None (list (list R))); [reflexivity|]. symmetry.
  assert (GB : Forall (fun p => (ar_buf (fst p) < length m)%nat) args).
  { clear - F. apply Forall_forall. intros p I. assert (J : In (fst p) (map fst args)) by now apply in_map. revert J. clear I. induction F; intro J; [destruct J|].
    destruct J as [<-|J]; [apply H|auto]. }
  clear - C I L EB GB. revert l C. induction args as [|(b, k) args IH]; intros l C; [destruct I|]. cbn in C. inversion C; subst. cbn [combine map snd preads].
  inversion GB; subst. destruct I as [I|I].
  - inversion I; subst. rewrite (pread_short (m ++ e) y n) with (B := match nth_error (m ++ e) (ar_buf y) with Some B => B | None => mkBuf [] true end); [reflexivity| | |].
    + destruct H1 as [(K & ->)|(K & R & S & P & B & HB & _)].
      * destruct (EB (kept_plain _ K)) as (B & HB & _). now rewrite nth_error_app1, HB.
      * now rewrite HB.
    + destruct H1 as [(K & ->)|(K & R & S & P & B & HB & HL & HO)].
      * destruct (EB (kept_plain _ K)) as (B & HB & HE). rewrite nth_error_app1, HB; [exact HE|exact H2].
      * rewrite HB, HO, S, HL. reflexivity.
    + destruct (converted_shape _ _ _ _ H1) as (-> & _). exact L.
  - rewrite (IH I H4 _ H3). now destruct (pread _ _ _).
Qed.
