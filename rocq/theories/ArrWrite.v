(** Proofs about arguments that are changed in place, orientations, stored pointers and indices. *)
From Coq Require Import ZArith List Arith Lia FinFun.
From Verif Require Import Base ArrModel ArrSpec ArrProofs.
From Coq Require Import List.
Import ListNotations.

Lemma Forall2_impl_in : forall {A B} (P Q : A -> B -> Prop) l r, (forall a b, In a l -> In b r -> P a b -> Q a b) -> Forall2 P l r -> Forall2 Q l r.
Proof.
  intros A B P Q l r H F. induction F; constructor; [apply H; [now left|now left|assumption]|]. apply IHF. intros a b I J. apply H; now right.
Qed.
Lemma rd_inside : forall m b k x, rd m b k = Some x -> exists B, nth_error m b = Some B /\ bf_live B = true /\ (0 <= k < Z.of_nat (length (bf_data B)))%Z.
Proof.
  intros m b k x H. unfold rd in H. destruct (nth_error m b) as [B|]; [|discriminate]. exists B. split; [reflexivity|].
  destruct (bf_live B && (0 <=? k)%Z)%bool eqn:E; [|discriminate]. apply andb_prop in E as (E1 & E2). split; [exact E1|]. apply Z.leb_le in E2.
  assert (Z.to_nat k < length (bf_data B))%nat by (apply nth_error_Some; now rewrite H). lia.
Qed.
Lemma pread_inside : forall m p x n, pread m p (S n) = Some x ->
  exists B, nth_error m (fst p) = Some B /\ bf_live B = true /\ (0 <= snd p)%Z /\ (snd p + Z.of_nat (S n) <= Z.of_nat (length (bf_data B)))%Z.
Proof.
  intros m p x n H. unfold pread in H.
  destruct (all_some_nth _ _ H 0%nat (rd m (fst p) (snd p + Z.of_nat 0))) as (y & E & _); [reflexivity|].
  destruct (all_some_nth _ _ H n (rd m (fst p) (snd p + Z.of_nat n))) as (z & E2 & _); [now rewrite (map_nth_error _ _ _ (nth_seq (S n) n 0%nat (Nat.lt_succ_diag_r n)))|].
  apply rd_inside in E as (B & HB & LV & I). apply rd_inside in E2 as (B2 & HB2 & _ & I2). rewrite HB in HB2. inversion HB2; subst.
  exists B2. repeat split; try assumption; lia.
Qed.
Lemma pwrite_spec : forall m c x y, plain c -> contents m c = Some x -> (ar_buf c < length m)%nat -> length y = total (ar_shape c) ->
  exists m', pwrite m (arr2ptr c) y = Some m' /\ contents m' c = Some y /\ length m' = length m /\ forall b, b <> ar_buf c -> nth_error m' b = nth_error m b.
Proof.
  intros m c x y P H L HL. unfold pwrite. destruct (Nat.eqb (length y) 0) eqn:Z.
  - apply Nat.eqb_eq in Z. exists m. split; [reflexivity|]. split; [|split; [reflexivity|auto]]. rewrite H. f_equal. apply contents_length in H. rewrite <- HL, Z in H.
    destruct x; [|discriminate]. destruct y; [reflexivity|discriminate].
  - apply Nat.eqb_neq in Z. rewrite <- plain_pread in H; [|exact P]. destruct (total (ar_shape c)) as [|n] eqn:T; [congruence|].
    destruct (pread_inside _ _ _ _ H) as (B & HB & LV & O & I). rewrite HB, LV.
    replace (0 <=? snd (arr2ptr c))%Z with true by (symmetry; now apply Z.leb_le).
    replace (Z.to_nat (snd (arr2ptr c)) + length y <=? length (bf_data B))%nat with true by (symmetry; apply Nat.leb_le; lia). cbn [andb].
    eexists; split; [reflexivity|]. cbn [fst snd arr2ptr] in *. split; [|split; [now apply put_length|]].
    + rewrite <- plain_pread; [|exact P]. rewrite T. unfold pread. apply all_some_intro; [now rewrite map_length, seq_length|]. intros k z Hk.
      assert (K : (k < S n)%nat) by (rewrite <- HL; apply nth_error_Some; now rewrite Hk).
      rewrite (map_nth_error _ _ _ (nth_seq (S n) k 0%nat K)). f_equal. cbn [fst snd arr2ptr]. unfold rd. rewrite put_same; [|exact L]. cbn [bf_live bf_data].
      replace (0 <=? ar_off c + Z.of_nat (0 + k))%Z with true by (symmetry; apply Z.leb_le; lia). cbn [andb].
      rewrite nth_error_app2; rewrite firstn_length, Nat.min_l; try lia. rewrite nth_error_app1; [|lia]. rewrite <- Hk. f_equal. lia.
    + intros b N. apply put_other; [exact L|exact N].
Qed.
Lemma pwrites_spec : forall outs l m xs ys, Forall2 (fun c x => contents m c = Some x /\ (ar_buf c < length m)%nat) l xs -> Forall plain l ->
  Forall2 (fun c y => length y = total (ar_shape c)) l ys -> length outs = length l -> NoDup (map ar_buf l) ->
  exists m', pwrites m outs l ys = Some m' /\ length m' = length m
    /\ (forall b, (forall i c, nth_error l i = Some c -> nth_error outs i = Some true -> ar_buf c <> b) -> nth_error m' b = nth_error m b)
    /\ (forall i c y, nth_error l i = Some c -> nth_error outs i = Some true -> nth_error ys i = Some y -> contents m' c = Some y).
Proof.
  intros outs l. revert outs. induction l as [|c l IH]; intros outs m xs ys F P G HL N; inversion F; subst; inversion G; subst; destruct outs as [|o outs]; try discriminate.
  - exists m. cbn. split; [reflexivity|]. split; [reflexivity|]. split; [reflexivity|]. intros [|i] c y H; discriminate.
  - inversion P; subst. cbn in N. inversion N; subst. destruct H1 as (H1 & L1). cbn.
    assert (ST : exists m1, (if o then pwrite m (arr2ptr c) y0 else Some m) = Some m1 /\ (o = true -> contents m1 c = Some y0) /\ length m1 = length m
                 /\ forall b, (o = true -> b <> ar_buf c) -> nth_error m1 b = nth_error m b).
    { destruct o.
      - destruct (pwrite_spec m c y y0) as (m1 & A & B & C & D); try assumption. exists m1. split; [exact A|]. split; [auto|]. split; [exact C|]. intros b Hb. apply D. now apply Hb.
      - exists m. split; [reflexivity|]. split; [discriminate|]. now split. }
    destruct ST as (m1 & E1 & W1 & LM & S1). rewrite E1.
    assert (NB : forall c', In c' l -> ar_buf c' <> ar_buf c) by (intros c' I E; apply H7; rewrite <- E; now apply in_map).
    destruct (IH outs m1 l' l'0) as (m2 & E2 & L2 & S2 & W2); try assumption.
    + apply Forall2_impl_in with (P := fun c x => contents m c = Some x /\ (ar_buf c < length m)%nat).
      * intros c' x' I _ (A & B). split; [|lia]. rewrite <- A. apply contents_same, S1. intros _. now apply NB.
      * assumption.
    + now inversion HL.
    + exists m2. split; [exact E2|]. split; [lia|]. split.
      * intros b H. rewrite S2; [apply S1; intros -> E; exact (H 0%nat c eq_refl eq_refl (eq_sym E))|]. intros i c' A B. now apply (H (S i)).
      * intros [|i] c' y' A B C; cbn in A, B, C.
        -- inversion A; inversion B; inversion C; subst. rewrite <- (W1 eq_refl). apply contents_same, S2. intros i c2 A2 _. apply NB. now apply nth_error_In in A2.
        -- now apply (W2 i).
Qed.

(** ** block_evaluate *)
Lemma lead_same : forall l args n, map ar_shape l = map ar_shape args -> lead_ok n l = lead_ok n args.
Proof. induction l as [|c l IH]; intros [|a args] n H; try discriminate; [reflexivity|]. cbn in *. inversion H. rewrite H1. destruct (ar_shape a); [reflexivity|]. now rewrite (IH args n H2). Qed.
Lemma list_eqb_eq : forall a b, list_eqb a b = true <-> a = b.
Proof.
  induction a as [|x a IH]; intros [|y b]; cbn; try (split; [discriminate|discriminate]); [split; reflexivity|]. rewrite Bool.andb_true_iff, Nat.eqb_eq, IH.
  split; [intros (-> & ->); reflexivity|intro H; inversion H; auto].
Qed.
Lemma shapes_same : forall l args ts, map ar_shape l = map ar_shape args -> shapes_ok (combine l ts) = shapes_ok (combine args ts).
Proof.
  induction l as [|c l IH]; intros [|a args] ts H; try discriminate; [reflexivity|]. destruct ts as [|t ts]; [reflexivity|]. cbn in *. inversion H.
  rewrite H1. f_equal. exact (IH args ts H2).
Qed.
Lemma block_tails_shapes : forall n nh, block_shapes n nh = map (cons n) (block_tails nh).
Proof. reflexivity. Qed.
Lemma checks_pass : forall ts args n, map ar_shape args = map (cons n) ts -> lead_ok n args = Some true /\ shapes_ok (combine args ts) = true.
Proof.
  induction ts as [|t ts IH]; intros [|a args] n H; try discriminate; [split; reflexivity|]. cbn in H. inversion H. destruct (IH args n H2) as (A & B).
  cbn. rewrite H1, Nat.eqb_refl. split; [exact A|]. cbn. apply andb_true_intro. split; [now apply list_eqb_eq|exact B].
Qed.
Lemma checks_complete : forall ts args n, length args = length ts -> lead_ok n args = Some true -> shapes_ok (combine args ts) = true -> map ar_shape args = map (cons n) ts.
Proof.
  induction ts as [|t ts IH]; intros [|a args] n HL A B; try discriminate; [reflexivity|]. cbn in A. destruct (ar_shape a) as [|k s] eqn:E; [discriminate|].
  destruct (Nat.eqb k n) eqn:K; [|discriminate]. apply Nat.eqb_eq in K. subst. cbn in B. apply andb_prop in B as (B1 & B2). rewrite E in B1. apply list_eqb_eq in B1. cbn in B1. subst.
  cbn. rewrite E. f_equal. apply IH; [now inversion HL|exact A|exact B2].
Qed.
Lemma lead_none : forall args n, (forall a, In a args -> ar_shape a <> []) -> lead_ok n args <> None.
Proof.
  induction args as [|a args IH]; intros n H; [discriminate|]. cbn. destruct (ar_shape a) eqn:E; [elim (H a (or_introl eq_refl) E)|].
  destruct (Nat.eqb n0 n); [|discriminate]. apply IH. intros b I. apply H. now right.
Qed.
Lemma Forall2_nth : forall {A B} (P : A -> B -> Prop) l r i a, Forall2 P l r -> nth_error l i = Some a -> exists b, nth_error r i = Some b /\ P a b.
Proof.
  intros A B P l r i a F. revert i. induction F; intros i H0; [destruct i; discriminate|]. destruct i; cbn in *; [inversion H0; subst; eauto|auto].
Qed.
Lemma Forall2_nth_r : forall {A B} (P : A -> B -> Prop) l r i b, Forall2 P l r -> nth_error r i = Some b -> exists a, nth_error l i = Some a /\ P a b.
Proof.
  intros A B P l r i a F. revert i. induction F; intros i H0; [destruct i; discriminate|]. destruct i; cbn in *; [inversion H0; subst; eauto|auto].
Qed.
Lemma preads_all : forall m l xs, Forall2 (fun c x => contents m c = Some x /\ (ar_buf c < length m)%nat) l xs -> Forall plain l ->
  preads m (map (fun a => (a, total (ar_shape a))) l) = Some xs.
Proof.
  intros m l xs F P. induction F as [|c x l xs (H & _) F IH]; [reflexivity|]. inversion P; subst. cbn [map preads].
  rewrite (pread_all m c x), IH; auto.
Qed.
Lemma held_good : forall m args xs, Forall2 (holds m) args xs -> Forall2 (good m) args xs.
Proof. intros m args xs F. induction F; constructor; [now apply good_holds|assumption]. Qed.
Lemma block_results : forall nh f n args m xs, map ar_shape args = block_shapes n nh -> Forall2 (holds m) args xs -> NoDup (map ar_buf args) ->
  Forall2 (fun x y => length y = length x) xs (f n xs) ->
  exists m', py_block nh f args m = Done tt m'
    /\ (forall i a x y, nth_error args i = Some a -> nth_error xs i = Some x -> nth_error (f n xs) i = Some y ->
          (is_result i /\ kept a = true -> shows m' a y) /\ (~ (is_result i /\ kept a = true) -> shows m' a x))
    /\ (forall b, (b < length m)%nat -> ~ In b (map ar_buf args) -> nth_error m' b = nth_error m b).
Proof.
  intros nh f n args m xs SH F ND FF. pose proof (held_good _ _ _ F) as G.
  destruct (as_c_all_spec _ _ _ G) as (e & l & E & C & X & N). unfold py_block. rewrite E.
  destruct (converted_all _ _ _ _ C) as (S & P & L). rewrite block_tails_shapes in SH. destruct (checks_pass _ _ _ SH) as (K1 & K2).
  rewrite <- (lead_same l args n S) in K1. rewrite <- (shapes_same l args _ S) in K2.
  assert (LN : length l = 13%nat) by (rewrite L, <- (map_length ar_shape args), SH; reflexivity).
  destruct l as [|a0 l0] eqn:El; [discriminate|]. rewrite <- El in *.
  assert (S0 : exists s0, ar_shape a0 = n :: s0).
  { rewrite El in S. cbn in S. rewrite SH in S. cbn in S. inversion S. eexists. exact H0. }
  destruct S0 as (s0 & S0). rewrite S0, K1, K2, (preads_all _ _ _ X P).
  destruct (pwrites_spec block_outs l (m ++ e) xs (f n xs)) as (m' & E' & L' & SM & W); try assumption.
  - clear - X FF. revert X FF. generalize (f n xs) as ys. revert xs. induction l as [|c l IH]; intros xs ys X FF; inversion X; subst; inversion FF; subst; constructor.
    + destruct H1 as (H1 & _). match goal with K : length _ = length _ |- _ => rewrite K end. now apply contents_length in H1.
    + apply (IH l' _); assumption.
  - now rewrite LN.
  - now apply N.
  - rewrite E'. eexists. split; [reflexivity|]. split.
    + intros i a x y Ha Hx Hy. assert (La : (ar_buf a < length m)%nat) by (destruct (Forall2_nth _ _ _ _ _ F Ha) as (? & _ & _ & ? & _); assumption).
      assert (FR' : nth_error (fold_right free m' (seq (length m) (length e))) (ar_buf a) = nth_error m' (ar_buf a)) by (apply frees_other; rewrite in_seq; lia).
      assert (RES : forall i, nth_error block_outs i = Some true <-> is_result i).
      { unfold is_result. intro j. split; [intro H; do 13 (destruct j; [cbn in H; try discriminate; lia|]); destruct j; discriminate|].
        intros [->|[->|[->|[->| ->]]]]; reflexivity. }
      split.
      * intros (RI & K). apply contents_shows. rewrite (contents_same m' _ a FR').
        destruct (Forall2_nth _ _ _ _ _ C Ha) as (c & Hc & [(_ & ->)|(K' & _)]); [|congruence]. apply (W i a y Hc); [now apply RES|exact Hy].
      * intro NR. apply contents_shows. rewrite (contents_same m' _ a FR'). rewrite (contents_same (m ++ e)).
        -- destruct (Forall2_nth _ _ _ _ _ G Ha) as (x' & Hx' & Gx). rewrite Hx in Hx'. inversion Hx'; subst. apply (good_app _ e _ _ Gx).
        -- apply SM. intros j c Hc Ho EB. destruct (Forall2_nth_r _ _ _ _ _ C Hc) as (aj & Haj & [(K & ->)|(_ & R & _)]); [|lia].
           assert (i = j). { apply (proj1 (NoDup_nth_error _) ND); [apply nth_error_Some; now rewrite (map_nth_error _ _ _ Ha)|].
             rewrite (map_nth_error _ _ _ Ha), (map_nth_error _ _ _ Haj). now rewrite EB. }
           subst j. rewrite Ha in Haj. inversion Haj; subst. apply NR. split; [now apply RES|exact K].
    + intros b Lb NI. rewrite frees_other; [|rewrite in_seq; lia]. rewrite SM; [now apply nth_error_app1|].
      intros j c Hc _ EB. destruct (Forall2_nth_r _ _ _ _ _ C Hc) as (aj & Haj & [(_ & ->)|(_ & R & _)]); [|lia].
      apply NI. rewrite <- EB. apply in_map. now apply nth_error_In in Haj.
Qed.
Lemma block_checked : forall nh f args m xs, length args = 13%nat -> Forall2 (holds m) args xs -> (forall a, In a args -> ar_shape a <> []) ->
  (forall n, map ar_shape args <> block_shapes n nh) -> py_block nh f args m = Raise.
Proof.
  intros nh f args m xs HL F NE NS. pose proof (held_good _ _ _ F) as G.
  destruct (as_c_all_spec _ _ _ G) as (e & l & E & C & X & _). unfold py_block. rewrite E.
  destruct (converted_all _ _ _ _ C) as (S & P & L). destruct l as [|a0 l0] eqn:El; [reflexivity|]. rewrite <- El in *.
  assert (S0 : exists n s0, ar_shape a0 = n :: s0).
  { rewrite El in S. destruct args as [|a args]; [discriminate|]. cbn in S. inversion S. rewrite H0. specialize (NE a (or_introl eq_refl)). destruct (ar_shape a); [now elim NE|eauto]. }
  destruct S0 as (n & s0 & S0). rewrite S0, (lead_same l args n S), (shapes_same l args _ S).
  pose proof (lead_none args n NE) as LN. destruct (lead_ok n args) as [[|]|] eqn:LO; [|reflexivity|now elim LN].
  destruct (shapes_ok (combine args (block_tails nh))) eqn:SO; [|reflexivity]. elim (NS n). rewrite block_tails_shapes. now apply checks_complete.
Qed.
Lemma block_scalar : forall nh f args m xs n, Forall2 (holds m) args xs -> firstn 3 (map ar_shape args) = [[n; 3; 3]; [n; 3; 3]; []]%nat -> py_block nh f args m = Wild.
Proof.
  intros nh f args m xs n F SH. pose proof (held_good _ _ _ F) as G.
  destruct (as_c_all_spec _ _ _ G) as (e & l & E & C & X & _). unfold py_block. rewrite E.
  destruct (converted_all _ _ _ _ C) as (S & _ & _). rewrite <- S in SH.
  destruct l as [|a0 [|a1 [|a2 l]]]; try discriminate. cbn in SH. inversion SH.
  cbv beta iota. rewrite ?H1, ?H0. cbn [lead_ok]. rewrite ?H1, ?H0, ?Nat.eqb_refl, ?H2. reflexivity.
Qed.

(** ** One argument changed in place *)
Lemma update_spec : forall g a m x, holds m a x -> length (g x) = length x ->
  exists m', py_update g (length x) a m = Done tt m' /\ (kept a = true -> shows m' a (g x)) /\ (kept a = false -> shows m' a x)
             /\ forall b, (b < length m)%nat -> b <> ar_buf a -> nth_error m' b = nth_error m b.
Proof.
  intros g a m x H HG. destruct (good_holds _ _ _ H) as (HC & L). destruct (as_c_spec m a x HC L) as (e & c & E & C & X).
  unfold py_update. rewrite E. destruct (converted_shape _ _ _ _ C) as (SC & PC).
  assert (LX : length x = total (ar_shape c)) by (apply contents_length in X; exact X).
  assert (Lc : (ar_buf c < length (m ++ e))%nat) by (destruct C as [(_ & ->)|(_ & R & _)]; [rewrite app_length|]; lia).
  rewrite LX, (pread_all _ _ _ PC X), <- LX, <- HG, firstn_all.
  destruct (pwrite_spec (m ++ e) c x (g x) PC X Lc) as (m' & E' & W & L' & SM); [congruence|]. rewrite E'. eexists. split; [reflexivity|].
  assert (FR : forall b, (b < length m)%nat -> nth_error (fold_right free m' (seq (length m) (length e))) b = nth_error m' b) by (intros b Lb; apply frees_other; rewrite in_seq; lia).
  split; [|split].
  - intro K. destruct C as [(_ & ->)|(K' & _)]; [|congruence]. apply contents_shows. rewrite (contents_same m' _ a); [exact W|now apply FR].
  - intro K. destruct C as [(K' & _)|(_ & R & _)]; [congruence|]. apply contents_shows. rewrite (contents_same m' _ a); [|now apply FR].
    rewrite (contents_same (m ++ e)); [now apply contents_app|]. apply SM. lia.
  - intros b Lb Nb. rewrite FR; [|exact Lb]. rewrite SM; [now apply nth_error_app1|]. destruct C as [(_ & ->)|(_ & R & _)]; [exact Nb|lia].
Qed.

(** ** Orientations, stored pointers, indices *)
Lemma as_c_kept : forall m a, kept a = true -> as_c m a = Some (m, a, []).
Proof. intros m a K. unfold as_c. fold (kept a). now rewrite K. Qed.
Lemma orientation_spec : forall a m x, holds m a x ->
  (ar_shape a = [3%nat] -> exists m', py_orientation a m = Done (ORodrigues x) m' /\ same_memory m m')
  /\ (ar_shape a = [3; 3]%nat -> exists m', py_orientation a m = Done (OMatrix x) m' /\ same_memory m m')
  /\ (ar_shape a = [4%nat] -> kept a = true -> py_orientation a m = Done (OQuat x) m)
  /\ (ar_shape a = [4%nat] -> kept a = false -> py_orientation a m = Wild).
Proof.
  intros a m x H. destruct (good_holds _ _ _ H) as (HC & L). destruct (as_c_spec m a x HC L) as (e & c & E & C & X).
  destruct (converted_shape _ _ _ _ C) as (SC & PC). pose proof (pread_all _ _ _ PC X) as RD. rewrite SC in RD.
  unfold py_orientation. rewrite E. repeat split; intro SH; rewrite SH in *; cbn [total fold_right Nat.mul Nat.add] in RD.
  - rewrite RD. eexists. split; [reflexivity|apply frees_added].
  - rewrite RD. eexists. split; [reflexivity|apply frees_added].
  - intro K. rewrite as_c_kept in E by exact K. injection E as E1 E2 E3. rewrite <- E1, <- E2, <- E3 in *. cbn [fold_right]. now rewrite RD.
  - intro K. destruct C as [(K' & _)|(_ & R & _ & _ & B & HB & _)]; [congruence|]. unfold pread. cbn [seq map all_some].
    rewrite app_length in R. unfold rd at 1. cbn [fst arr2ptr]. rewrite (frees_same _ _ _ B); [reflexivity|apply in_seq; lia|exact HB].
Qed.
Lemma set_data_spec : forall a m x, holds m a x ->
  (kept a = true -> py_set_data a m = Done (arr2ptr a) m /\ forall m', pread m' (arr2ptr a) (length x) = contents m' a)
  /\ (kept a = false -> exists p m', py_set_data a m = Done p m' /\ forall n, pread m' p (S n) = None)
  /\ (forall n, pread (drop a m) (arr2ptr a) (S n) = None).
Proof.
  intros a m x H. destruct (good_holds _ _ _ H) as (HC & L). split; [|split].
  - intro K. unfold py_set_data. rewrite as_c_kept by exact K. split; [reflexivity|]. intro m'. rewrite (contents_length _ _ _ HC). apply plain_pread. now apply kept_plain.
  - intro K. destruct (as_c_spec m a x HC L) as (e & c & E & C & X). unfold py_set_data. rewrite E. do 2 eexists. split; [reflexivity|]. intro n.
    destruct C as [(K' & _)|(_ & R & _ & _ & B & HB & _)]; [congruence|]. unfold pread. cbn [seq map all_some].
    rewrite app_length in R. unfold rd at 1. cbn [fst arr2ptr]. rewrite (frees_same _ _ _ B); [reflexivity|apply in_seq; lia|exact HB].
  - intro n. unfold pread. cbn [seq map all_some]. unfold rd at 1, drop. cbn [fst arr2ptr].
    destruct (nth_error m (ar_buf a)) as [B|] eqn:HB; [now rewrite (free_same _ _ B HB)|apply nth_error_None in HB; lia].
Qed.
Lemma copy_data_spec : forall a m x, holds m a x -> exists m', py_copy_data (length x) a m = Done x m' /\ same_memory m m'.
Proof.
  intros a m x H. destruct (good_holds _ _ _ H) as (HC & L). destruct (as_c_spec m a x HC L) as (e & c & E & C & X).
  destruct (converted_shape _ _ _ _ C) as (SC & PC). unfold py_copy_data. rewrite E, (contents_length _ _ _ X), (pread_all _ _ _ PC X).
  eexists. split; [reflexivity|apply frees_added].
Qed.

Lemma kept_iff : forall m a x, holds m a x -> (kept a = true <-> plain a).
Proof. intros m a x (_ & _ & HL). split; [apply kept_plain|now apply plain_kept]. Qed.
Lemma not_kept : forall m a x, holds m a x -> ~ plain a -> kept a = false.
Proof. intros m a x H N. destruct (kept a) eqn:K; [elim N; now apply kept_plain|reflexivity]. Qed.
Lemma block_results_plain : forall nh f n args m xs, map ar_shape args = block_shapes n nh -> Forall2 (holds m) args xs -> NoDup (map ar_buf args) ->
  Forall2 (fun x y => length y = length x) xs (f n xs) ->
  exists m', py_block nh f args m = Done tt m'
    /\ (forall i a x y, nth_error args i = Some a -> nth_error xs i = Some x -> nth_error (f n xs) i = Some y ->
          (is_result i /\ plain a -> shows m' a y) /\ (~ (is_result i /\ plain a) -> shows m' a x))
    /\ (forall b, (b < length m)%nat -> ~ In b (map ar_buf args) -> nth_error m' b = nth_error m b).
Proof.
  intros nh f n args m xs SH F ND FF. destruct (block_results nh f n args m xs SH F ND FF) as (m' & E & H & U). exists m'. split; [exact E|]. split; [|exact U].
  intros i a x y Ha Hx Hy. destruct (Forall2_nth _ _ _ _ _ F Ha) as (x' & _ & HO). pose proof (kept_iff _ _ _ HO) as K. destruct (H i a x y Ha Hx Hy) as (A & B).
  split; intro Q; [apply A|apply B]; now rewrite K.
Qed.
Lemma block_in_place : forall nh f n args m xs, map ar_shape args = block_shapes n nh -> Forall2 (holds m) args xs -> NoDup (map ar_buf args) ->
  Forall2 (fun x y => length y = length x) xs (f n xs) -> (forall i a, is_result i -> nth_error args i = Some a -> plain a) ->
  exists m', py_block nh f args m = Done tt m'
    /\ forall i a x y, nth_error args i = Some a -> nth_error xs i = Some x -> nth_error (f n xs) i = Some y ->
          (is_result i -> shows m' a y) /\ (~ is_result i -> shows m' a x).
Proof.
  intros nh f n args m xs SH F ND FF PL. destruct (block_results_plain nh f n args m xs SH F ND FF) as (m' & E & H & _). exists m'. split; [exact E|].
  intros i a x y Ha Hx Hy. destruct (H i a x y Ha Hx Hy) as (A & B). split; intro Q; [apply A|apply B]; [split; [exact Q|exact (PL i a Q Ha)]|tauto].
Qed.
Lemma update_plain : forall g a m x, holds m a x -> length (g x) = length x ->
  exists m', py_update g (length x) a m = Done tt m' /\ (plain a -> shows m' a (g x)) /\ (~ plain a -> shows m' a x)
             /\ forall b, (b < length m)%nat -> b <> ar_buf a -> nth_error m' b = nth_error m b.
Proof.
  intros g a m x H HG. destruct (update_spec g a m x H HG) as (m' & E & A & B & C). exists m'. split; [exact E|]. split; [|split; [|exact C]].
  - intro P. apply A. now apply (kept_iff m a x H).
  - intro P. apply B. now apply (not_kept m a x).
Qed.
Lemma orientation_three : forall a m x, holds m a x -> ar_shape a = [3%nat] -> exists m', py_orientation a m = Done (ORodrigues x) m' /\ same_memory m m'.
Proof. intros a m x H. apply (orientation_spec a m x H). Qed.
Lemma orientation_nine : forall a m x, holds m a x -> ar_shape a = [3; 3]%nat -> exists m', py_orientation a m = Done (OMatrix x) m' /\ same_memory m m'.
Proof. intros a m x H. apply (orientation_spec a m x H). Qed.
Lemma orientation_four : forall a m x, holds m a x -> ar_shape a = [4%nat] -> plain a -> py_orientation a m = Done (OQuat x) m.
Proof. intros a m x H S P. apply (orientation_spec a m x H); [exact S|now apply (kept_iff m a x H)]. Qed.
Lemma orientation_four_view : forall a m x, holds m a x -> ar_shape a = [4%nat] -> ~ plain a -> py_orientation a m = Wild.
Proof. intros a m x H S P. apply (orientation_spec a m x H); [exact S|now apply (not_kept m a x)]. Qed.
Lemma orientation_small_matrix : forall a m x n k, holds m a x -> ar_shape a = [n; k] -> (n * k < 9)%nat -> (plain a -> ends_block m a) -> py_orientation a m = Wild.
Proof.
  intros a m x n k H S L EB. destruct (good_holds _ _ _ H) as (HC & LB). destruct (as_c_spec m a x HC LB) as (e & c & E & C & X).
  destruct (converted_shape _ _ _ _ C) as (SC & PC). unfold py_orientation. rewrite E, S. replace (pread (m ++ e) (arr2ptr c) 9) with (@None (list R)).
  - now do 5 (destruct n as [|n]; [reflexivity|]).
  - symmetry. apply pread_short with (B := match nth_error (m ++ e) (ar_buf c) with Some B => B | None => mkBuf [] true end).
    + destruct C as [(K & ->)|(K & R & _ & _ & B & HB & _)]; [|now rewrite HB]. destruct (EB (kept_plain _ K)) as (B & HB & _). now rewrite nth_error_app1, HB.
    + destruct C as [(K & ->)|(K & R & _ & _ & B & HB & HL & HO)].
      * destruct (EB (kept_plain _ K)) as (B & HB & HE). now rewrite nth_error_app1, HB.
      * rewrite HB, HO, SC, HL. reflexivity.
    + rewrite SC, S. unfold total. cbn. lia.
Qed.
Lemma orientation_other : forall a m x, holds m a x -> (forall n k, ar_shape a <> [n; k]) -> ar_shape a <> [3%nat] -> ar_shape a <> [4%nat] -> py_orientation a m = Raise.
Proof.
  intros a m x H N2 N3 N4. destruct (good_holds _ _ _ H) as (HC & LB). destruct (as_c_spec m a x HC LB) as (e & c & E & C & X). unfold py_orientation. rewrite E.
  destruct (ar_shape a) as [|n [|k [|j s]]]; [reflexivity| |now elim (N2 n k)|].
  - do 5 (destruct n as [|n]; [reflexivity || congruence|]). reflexivity.
  - now do 5 (destruct n as [|n]; [reflexivity|]).
Qed.
Lemma set_data_shared : forall a m x, holds m a x -> plain a -> py_set_data a m = Done (arr2ptr a) m /\ forall m' y, shows m' a y -> pread m' (arr2ptr a) (length x) = Some y.
Proof.
  intros a m x H P. destruct (set_data_spec a m x H) as (A & _ & _). destruct A as (A & B); [now apply (kept_iff m a x H)|]. split; [exact A|].
  intros m' y S. rewrite B. now apply contents_shows.
Qed.
Lemma set_data_view : forall a m x, holds m a x -> ~ plain a -> exists p m', py_set_data a m = Done p m' /\ forall n, pread m' p (S n) = None.
Proof. intros a m x H P. apply (set_data_spec a m x H). now apply (not_kept m a x). Qed.
Lemma set_data_dropped : forall a m x, holds m a x -> plain a -> py_set_data a m = Done (arr2ptr a) m /\ forall n, pread (drop a m) (arr2ptr a) (S n) = None.
Proof. intros a m x H P. split; [now apply (set_data_shared a m x)|apply (set_data_spec a m x H)]. Qed.

Lemma vector_get_spec : forall v i, vector_get v i = Some (nth_error v i).
Proof.
  intros v i. unfold vector_get. destruct (Nat.leb (length v) i) eqn:E; [apply Nat.leb_le in E; f_equal; symmetry; now apply nth_error_None|].
  apply Nat.leb_gt in E. destruct (nth_error v i) eqn:N; [reflexivity|apply nth_error_None in N; lia].
Qed.
Lemma two_spec : forall M i j, length M = 9%nat ->
  ((i < 3)%nat -> (j < 3)%nat -> ranktwo_get M i j = Some (nth_error M (position [3; 3] [i; j])%nat) /\ nth_error M (position [3; 3]%nat [i; j]) <> None)
  /\ ((3 <= i)%nat \/ (3 < j)%nat -> ranktwo_get M i j = Some None).
Proof.
  intros M i j HL. unfold ranktwo_get. split.
  - intros Hi Hj. replace (3 <=? i)%nat with false by (symmetry; apply Nat.leb_gt; lia). replace (3 <? j)%nat with false by (symmetry; apply Nat.ltb_ge; lia). cbn [orb].
    replace (position [3; 3]%nat [i; j]) with (i * 3 + j)%nat by (cbn; lia).
    assert (N : nth_error M (i * 3 + j) <> None) by (apply nth_error_Some; lia). split; [|exact N]. destruct (nth_error M (i * 3 + j)); [reflexivity|now elim N].
  - intros [H|H]; [replace (3 <=? i)%nat with true by (symmetry; apply Nat.leb_le; lia)|replace (3 <? j)%nat with true by (symmetry; apply Nat.ltb_lt; lia)]; now rewrite ?Bool.orb_true_r.
Qed.
Lemma two_three : forall M, length M = 9%nat ->
  (forall i, (i < 2)%nat -> ranktwo_get M i 3 = ranktwo_get M (S i) 0 /\ forall x, ranktwo_set M i 3 x = ranktwo_set M (S i) 0 x)
  /\ ranktwo_get M 2 3 = None /\ forall x, ranktwo_set M 2 3 x = None.
Proof.
  intros M HL. split; [|split].
  - intros i Hi. destruct i as [|[|i]]; [split; reflexivity|split; reflexivity|lia].
  - unfold ranktwo_get. cbn [Nat.leb Nat.ltb orb Nat.mul Nat.add]. replace (nth_error M 9) with (@None R); [reflexivity|symmetry; apply nth_error_None; lia].
  - intro x. unfold ranktwo_set, set_nth. cbn [Nat.leb Nat.ltb orb Nat.mul Nat.add]. rewrite HL. reflexivity.
Qed.
Lemma four_spec : forall M i j k l, length M = 81%nat -> (i < 3)%nat -> (j < 3)%nat -> (k < 3)%nat -> (l < 3)%nat ->
  rankfour_get M i j k l = Some (nth_error M (position [3; 3; 3; 3] [i; j; k; l])%nat) /\ nth_error M (position [3; 3; 3; 3]%nat [i; j; k; l]) <> None.
Proof.
  intros M i j k l HL Hi Hj Hk Hl. unfold rankfour_get. replace (3 <=? i)%nat with false by (symmetry; apply Nat.leb_gt; lia).
  replace (3 <? j)%nat with false by (symmetry; apply Nat.ltb_ge; lia). replace (3 <? k)%nat with false by (symmetry; apply Nat.ltb_ge; lia).
  replace (3 <? l)%nat with false by (symmetry; apply Nat.ltb_ge; lia). cbn [orb].
  replace (position [3; 3; 3; 3]%nat [i; j; k; l]) with (i * 27 + j * 9 + k * 3 + l)%nat by (cbn; lia).
  assert (N : nth_error M (i * 27 + j * 9 + k * 3 + l) <> None) by (apply nth_error_Some; lia). split; [|exact N].
  destruct (nth_error M (i * 27 + j * 9 + k * 3 + l)); [reflexivity|now elim N].
Qed.
Lemma four_three : forall M, length M = 81%nat -> rankfour_get M 2 3 0 0 = None /\ rankfour_get M 0 0 0 3 = rankfour_get M 0 0 1 0.
Proof.
  intros M HL. split; [|reflexivity]. unfold rankfour_get. cbn [Nat.leb Nat.ltb orb Nat.mul Nat.add].
  replace (nth_error M 81) with (@None R); [reflexivity|symmetry; apply nth_error_None; lia].
Qed.
Lemma two_set_get : forall M i j x i' j', length M = 9%nat -> (i < 3)%nat -> (j < 3)%nat -> (i' < 3)%nat -> (j' < 3)%nat ->
  exists M', ranktwo_set M i j x = Some (Some M') /\ length M' = 9%nat
    /\ ranktwo_get M' i' j' = if (Nat.eqb i i' && Nat.eqb j j')%bool then Some (Some x) else ranktwo_get M i' j'.
Proof.
  intros M i j x i' j' HL Hi Hj Hi' Hj'. unfold ranktwo_set, set_nth. replace (3 <=? i)%nat with false by (symmetry; apply Nat.leb_gt; lia).
  replace (3 <? j)%nat with false by (symmetry; apply Nat.ltb_ge; lia). cbn [orb]. rewrite HL.
  replace (i * 3 + j <? 9)%nat with true by (symmetry; apply Nat.ltb_lt; lia). eexists. split; [reflexivity|].
  assert (LN : length (firstn (i * 3 + j) M ++ x :: skipn (S (i * 3 + j)) M) = 9%nat).
  { rewrite app_length, firstn_length. cbn [length]. rewrite skipn_length. lia. }
  split; [exact LN|]. destruct (two_spec _ i' j' LN) as (A & _). destruct (A Hi' Hj') as (A1 & _). destruct (two_spec _ i' j' HL) as (B & _). destruct (B Hi' Hj') as (B1 & _).
  rewrite A1, B1. replace (position [3; 3]%nat [i'; j']) with (i' * 3 + j')%nat by (cbn; lia).
  destruct (Nat.eq_dec (i' * 3 + j') (i * 3 + j)) as [E|E].
  - assert (i = i' /\ j = j') as (<- & <-) by lia. rewrite !Nat.eqb_refl. cbn [andb]. rewrite nth_error_app2; rewrite firstn_length, Nat.min_l; try lia. now rewrite Nat.sub_diag.
  - replace (Nat.eqb i i' && Nat.eqb j j')%bool with false.
    + f_equal. destruct (Nat.lt_ge_cases (i' * 3 + j') (i * 3 + j)) as [L|L].
      * rewrite nth_error_app1; [|rewrite firstn_length; lia]. now apply nth_error_firstn_lt.
      * rewrite nth_error_app2; rewrite firstn_length, Nat.min_l; try lia. destruct (i' * 3 + j' - (i * 3 + j))%nat eqn:D; [lia|]. cbn [nth_error]. rewrite nth_error_skipn_add. f_equal. lia.
    + symmetry. apply Bool.andb_false_iff. destruct (Nat.eqb i i') eqn:E1; [right|now left]. apply Nat.eqb_eq in E1. apply Nat.eqb_neq. lia.
Qed.
