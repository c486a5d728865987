(** Proofs for batches and polycrystals. *)
From Verif Require Import Base.
From Verif Require Import NemlMathModel.
From Verif Require Import NemlMathSpec.
From Verif Require Import RotModel.
From Verif Require Import RotSpec.
From Verif Require Import RotProofs.
From Verif Require Import Diff.
From Verif Require Import PolyModel.
From Verif Require Import PolySpec.
From Coq Require Import List Arith Lia Lra Permutation FunctionalExtensionality.
Import ListNotations.

(** *** Slices *)
Lemma write_in len i v a j : (j < len)%nat -> write len i v a (i * len + j)%nat = v j.
Proof.
  intros Hj. unfold write. rewrite (proj2 (Nat.leb_le _ _)) by lia. rewrite (proj2 (Nat.ltb_lt _ _)) by lia. cbn [andb]. f_equal. lia.
Qed.
Lemma write_other len i k v a j : i <> k -> (j < len)%nat -> write len i v a (k * len + j)%nat = a (k * len + j)%nat.
Proof.
  intros N Hj. unfold write. destruct (Nat.leb (i * len) (k * len + j)) eqn:L; [|reflexivity]. destruct (Nat.ltb (k * len + j) (i * len + len)) eqn:M; [|reflexivity].
  apply Nat.leb_le in L. apply Nat.ltb_lt in M. exfalso. apply N. nia.
Qed.
Lemma write_beyond len i n v a p : (i < n)%nat -> (n * len <= p)%nat -> write len i v a p = a p.
Proof. intros Hi Hp. unfold write. destruct (Nat.ltb p (i * len + len)) eqn:M; [|rewrite Bool.andb_false_r; reflexivity]. apply Nat.ltb_lt in M. exfalso. nia. Qed.

(** *** The batch *)
(** the answers are in their slices, the other slices untouched *)
Definition slice_same (nh : nat) (i : nat) (o o' : bout) : Prop :=
  (forall j, (j < 6)%nat -> o_s o (i * 6 + j)%nat = o_s o' (i * 6 + j)%nat) /\ (forall j, (j < nh)%nat -> o_h o (i * nh + j)%nat = o_h o' (i * nh + j)%nat) /\
  (forall j, (j < 36)%nat -> o_A o (i * 36 + j)%nat = o_A o' (i * 36 + j)%nat) /\ (forall j, (j < 18)%nat -> o_B o (i * 18 + j)%nat = o_B o' (i * 18 + j)%nat) /\
  o_u o i = o_u o' i /\ o_p o i = o_p o' i.
Lemma put_is nh i r o : slice_is nh i r (put nh i r o).
Proof.
  unfold put, slice_is. cbn [o_s o_h o_A o_B o_u o_p]. repeat split; intros; try (apply write_in; assumption).
  - replace i with (i * 1 + 0)%nat at 2 by lia. rewrite (write_in 1 i); [reflexivity|lia].
  - replace i with (i * 1 + 0)%nat at 2 by lia. rewrite (write_in 1 i); [reflexivity|lia].
Qed.
Lemma put_same nh i k r o : i <> k -> slice_same nh k (put nh i r o) o.
Proof.
  intros N. unfold put, slice_same. cbn [o_s o_h o_A o_B o_u o_p]. repeat split; intros; try (apply write_other; assumption).
  - replace k with (k * 1 + 0)%nat by lia. rewrite write_other; [reflexivity|lia|lia].
  - replace k with (k * 1 + 0)%nat by lia. rewrite write_other; [reflexivity|lia|lia].
Qed.
Lemma slice_same_is nh k r o o' : slice_same nh k o o' -> slice_is nh k r o' -> slice_is nh k r o.
Proof.
  intros (A1 & A2 & A3 & A4 & A5 & A6) (B1 & B2 & B3 & B4 & B5 & B6). unfold slice_is.
  split; [intros; rewrite A1 by assumption; auto|]. split; [intros; rewrite A2 by assumption; auto|]. split; [intros; rewrite A3 by assumption; auto|].
  split; [intros; rewrite A4 by assumption; auto|]. split; [rewrite A5|rewrite A6]; assumption.
Qed.
Lemma slice_same_trans nh k o o' o'' : slice_same nh k o o' -> slice_same nh k o' o'' -> slice_same nh k o o''.
Proof.
  intros (A1 & A2 & A3 & A4 & A5 & A6) (B1 & B2 & B3 & B4 & B5 & B6). unfold slice_same.
  split; [intros; rewrite A1 by assumption; auto|]. split; [intros; rewrite A2 by assumption; auto|]. split; [intros; rewrite A3 by assumption; auto|].
  split; [intros; rewrite A4 by assumption; auto|]. split; [rewrite A5|rewrite A6]; assumption.
Qed.
Lemma slice_same_refl nh k o : slice_same nh k o o.
Proof. unfold slice_same. repeat split; intros; reflexivity. Qed.

Lemma fold_batch m nh b : forall order o e, NoDup order ->
  let st := fold_left (batch_one m nh b) order (o, e) in
  (e <= snd st)%nat /\
  (snd st = e <-> forall i, In i order -> m (arg nh b i) <> None) /\
  (forall k, ~ In k order -> slice_same nh k (fst st) o) /\
  (snd st = e -> forall i r, In i order -> m (arg nh b i) = Some r -> slice_is nh i r (fst st)).
Proof.
  induction order as [|i order IH]; intros o e ND.
  - cbn. split; [lia|]. split; [split; [intros _ i []|reflexivity]|]. split; [intros; apply slice_same_refl|intros _ i r []].
  - inversion ND as [|? ? Hni ND']; subst. cbn [fold_left]. unfold batch_one at 2 4 6 8 10. cbn [fst snd].
    destruct (m (arg nh b i)) as [r|] eqn:E.
    + destruct (IH (put nh i r o) e ND') as (H1 & H2 & H3 & H4). cbv zeta in *. split; [exact H1|]. split; [|split].
      * rewrite H2. split; [intros H k [<-|Hk]; [rewrite E; discriminate|apply H; exact Hk]|intros H k Hk; apply H; right; exact Hk].
      * intros k Hk. eapply slice_same_trans; [apply H3; intros C; apply Hk; right; exact C|]. apply put_same. intros ->. apply Hk. left. reflexivity.
      * intros He k r' [<-|Hk] Er; [|apply H4; assumption]. rewrite E in Er. injection Er as <-.
        eapply slice_same_is; [apply H3; exact Hni|apply put_is].
    + destruct (IH o (S e) ND') as (H1 & H2 & H3 & H4). cbv zeta in *. split; [lia|]. split; [|split].
      * split; [intros C; lia|intros H; exfalso; apply (H i (or_introl eq_refl)); exact E].
      * intros k Hk. apply H3. intros C. apply Hk. right. exact C.
      * intros C. lia.
Qed.
(** beyond the n crystals nothing is written *)
Lemma fold_beyond m nh b n : forall order o e, (forall i, In i order -> (i < n)%nat) -> beyond_same nh n (fst (fold_left (batch_one m nh b) order (o, e))) o.
Proof.
  induction order as [|i order IH]; intros o e Hi; cbn [fold_left]; [unfold beyond_same; cbn; intros; repeat split; reflexivity|].
  unfold batch_one at 2. cbn [fst snd]. destruct (m (arg nh b i)) as [r|]; [|apply IH; intros; apply Hi; right; assumption].
  pose proof (Hi i (or_introl eq_refl)) as L.
  pose proof (IH (put nh i r o) e ltac:(intros; apply Hi; right; assumption)) as H. intros p. specialize (H p). destruct H as (H1 & H2 & H3 & H4 & H5).
  cbn [put o_s o_h o_A o_B o_u o_p] in H1, H2, H3, H4, H5.
  split; [intros Hp; rewrite H1 by exact Hp; apply (write_beyond 6 i n); assumption|]. split; [intros Hp; rewrite H2 by exact Hp; apply (write_beyond nh i n); assumption|].
  split; [intros Hp; rewrite H3 by exact Hp; apply (write_beyond 36 i n); assumption|]. split; [intros Hp; rewrite H4 by exact Hp; apply (write_beyond 18 i n); assumption|].
  intros Hp. destruct (H5 Hp) as [-> ->]. split; apply (write_beyond 1 i n); lia.
Qed.
Lemma order_facts order n : Permutation order (seq 0 n) -> NoDup order /\ forall i, In i order <-> (i < n)%nat.
Proof.
  intros P. split; [apply (Permutation_NoDup (Permutation_sym P)); apply seq_NoDup|]. intros i. split; intros H.
  - apply (Permutation_in _ P) in H. apply in_seq in H. lia.
  - apply (Permutation_in _ (Permutation_sym P)). apply in_seq. lia.
Qed.
Lemma batch_ok m nh n order b o o' : Permutation order (seq 0 n) -> batch m nh order b o = Some o' ->
  (forall i, (i < n)%nat -> exists r, m (arg nh b i) = Some r /\ slice_is nh i r o') /\ beyond_same nh n o' o.
Proof.
  intros P H. destruct (order_facts order n P) as [ND HI]. unfold batch in H.
  destruct (fold_batch m nh b order o 0 ND) as (_ & H2 & _ & H4). cbv zeta in *.
  pose proof (fold_beyond m nh b n order o 0 (fun i Hi => proj1 (HI i) Hi)) as HB.
  destruct (Nat.ltb 0 (snd _)) eqn:L; [discriminate|]. injection H as <-. apply Nat.ltb_ge in L.
  assert (E0 : snd (fold_left (batch_one m nh b) order (o, 0%nat)) = 0%nat) by lia. split; [|exact HB].
  intros i Hi. pose proof (proj1 H2 E0 i (proj2 (HI i) Hi)) as N. destruct (m (arg nh b i)) as [r|] eqn:E; [|contradiction].
  exists r. split; [reflexivity|]. apply H4; [exact E0|apply HI; exact Hi|exact E].
Qed.
Lemma batch_fails m nh n order b o : Permutation order (seq 0 n) -> (batch m nh order b o = None <-> exists i, (i < n)%nat /\ m (arg nh b i) = None).
Proof.
  intros P. destruct (order_facts order n P) as [ND HI]. unfold batch. destruct (fold_batch m nh b order o 0 ND) as (_ & H2 & _ & _). cbv zeta in *.
  destruct (Nat.ltb 0 (snd _)) eqn:L.
  - apply Nat.ltb_lt in L. split; [intros _|reflexivity].
    assert (Ex : forall l, (forall i, In i l -> m (arg nh b i) <> None) \/ exists i, In i l /\ m (arg nh b i) = None).
    { induction l as [|a l IHl]; [left; intros i []|]. destruct (m (arg nh b a)) eqn:E; [|right; exists a; split; [left; reflexivity|exact E]].
      destruct IHl as [IHl|(i & Hi & Ei)]; [left; intros i [<-|Hi]; [rewrite E; discriminate|apply IHl; exact Hi]|right; exists i; split; [right; exact Hi|exact Ei]]. }
    destruct (Ex order) as [A|(i & Hi & Ei)]; [apply H2 in A; lia|]. exists i. split; [apply HI; exact Hi|exact Ei].
  - apply Nat.ltb_ge in L. split; [discriminate|]. intros (i & Hi & Ei). exfalso. apply (proj1 H2 ltac:(lia) i (proj2 (HI i) Hi)). exact Ei.
Qed.
(** Every schedule gives the same answer. *)
Lemma batch_schedule m nh n order order' b o : Permutation order (seq 0 n) -> Permutation order' (seq 0 n) -> batch m nh order b o = batch m nh order' b o.
Proof.
  intros P P'. destruct (batch m nh order b o) as [o1|] eqn:E1.
  - destruct (batch m nh order' b o) as [o2|] eqn:E2; [|apply (batch_fails m nh n order' b o P') in E2; apply (batch_fails m nh n order b o P) in E2; congruence].
    f_equal. destruct (batch_ok _ _ _ _ _ _ _ P E1) as [H1 B1]. destruct (batch_ok _ _ _ _ _ _ _ P' E2) as [H2 B2].
    assert (Q : forall len (f : bout -> vec) (g : cout -> vec), (len <> 0)%nat -> (forall i r o', slice_is nh i r o' -> forall j, (j < len)%nat -> f o' (i * len + j)%nat = g r j) ->
       (forall oo, beyond_same nh n oo o -> forall p, (n * len <= p)%nat -> f oo p = f o p) -> f o1 = f o2).
    { intros len f g Hl Hs Hb. apply functional_extensionality. intros p. destruct (Nat.lt_ge_cases p (n * len)) as [L|G].
      - pose proof (Nat.div_mod_eq p len) as DM. assert (Hi : (p / len < n)%nat) by (apply Nat.div_lt_upper_bound; lia).
        assert (Hj : (p mod len < len)%nat) by (apply Nat.mod_upper_bound; exact Hl).
        replace p with (p / len * len + p mod len)%nat by lia.
        destruct (H1 _ Hi) as (r1 & R1 & S1). destruct (H2 _ Hi) as (r2 & R2 & S2). rewrite R1 in R2. injection R2 as <-.
        rewrite (Hs _ _ _ S1 _ Hj), (Hs _ _ _ S2 _ Hj). reflexivity.
      - rewrite (Hb o1 B1 p G), (Hb o2 B2 p G). reflexivity. }
    assert (Es : o_s o1 = o_s o2) by (apply (Q 6%nat o_s c_s); [lia|intros i r o' (A & _); exact A|intros oo Hb p; apply (Hb p)]).
    assert (EA : o_A o1 = o_A o2) by (apply (Q 36%nat o_A c_A); [lia|intros i r o' (_ & _ & A & _); exact A|intros oo Hb p; apply (Hb p)]).
    assert (EB : o_B o1 = o_B o2) by (apply (Q 18%nat o_B c_B); [lia|intros i r o' (_ & _ & _ & A & _); exact A|intros oo Hb p; apply (Hb p)]).
    assert (Eu : o_u o1 = o_u o2).
    { apply (Q 1%nat o_u (fun r _ => c_u r)); [lia| |intros oo Hb p Hp; destruct (Hb p) as (_ & _ & _ & _ & Hx); apply Hx; lia].
      intros i r o' (_ & _ & _ & _ & A & _) j Hj. replace (i * 1 + j)%nat with i by lia. exact A. }
    assert (Ep : o_p o1 = o_p o2).
    { apply (Q 1%nat o_p (fun r _ => c_p r)); [lia| |intros oo Hb p Hp; destruct (Hb p) as (_ & _ & _ & _ & Hx); apply Hx; lia].
      intros i r o' (_ & _ & _ & _ & _ & A) j Hj. replace (i * 1 + j)%nat with i by lia. exact A. }
    assert (Eh : o_h o1 = o_h o2).
    { destruct nh as [|nh']; [|apply (Q (S nh') o_h c_h); [lia|intros i r o' (_ & A & _); exact A|intros oo Hb p; apply (Hb p)]].
      apply functional_extensionality. intros p. destruct (B1 p) as (_ & A1 & _). destruct (B2 p) as (_ & A2 & _). rewrite A1, A2 by lia. reflexivity. }
    destruct o1 as [a1 a2 a3 a4 a5 a6]; destruct o2 as [z1 z2 z3 z4 z5 z6]; cbn [o_s o_h o_A o_B o_u o_p] in Es, EA, EB, Eu, Ep, Eh; subst; reflexivity.
  - symmetry. apply (batch_fails m nh n order' b o P'). apply (batch_fails m nh n order b o P). exact E1.
Qed.

(** *** Initialisation and orientations *)
Lemma fold_write len n (f : nat -> vec -> vec) : forall k hist,
  let a := fold_left (fun a i => write len i (f i (part len i a)) a) (seq k n) hist in
  (forall i j, (k <= i < k + n)%nat -> (j < len)%nat -> a (i * len + j)%nat = f i (part len i hist) j) /\
  (forall i j, (i < k \/ k + n <= i)%nat -> (j < len)%nat -> a (i * len + j)%nat = hist (i * len + j)%nat) /\
  (forall p, ((k + n) * len <= p)%nat -> a p = hist p).
Proof.
  induction n as [|n IH]; intros k hist; cbn [seq fold_left].
  - split; [intros; lia|]. split; [reflexivity|reflexivity].
  - destruct (IH (S k) (write len k (f k (part len k hist)) hist)) as (H1 & H2 & H3). cbv zeta in *. split; [|split].
    + intros i j Hi Hj. destruct (Nat.eq_dec i k) as [->|N].
      * rewrite H2 by lia. apply write_in. exact Hj.
      * rewrite H1 by lia. f_equal. unfold part. apply functional_extensionality. intros q. destruct (Nat.ltb q len) eqn:L; [|reflexivity].
        apply Nat.ltb_lt in L. apply write_other; [lia|exact L].
    + intros i j Hi Hj. rewrite H2 by lia. apply write_other; [lia|exact Hj].
    + intros p Hp. rewrite H3 by lia. apply (write_beyond len k (k + S n)); lia.
Qed.
Lemma init_batch_value nh n h0 hist : forall i j, (i < n)%nat -> (j < nh)%nat -> init_batch nh n h0 hist (i * nh + j)%nat = h0 j.
Proof. intros i j Hi Hj. unfold init_batch. apply (proj1 (fold_write nh n (fun _ _ => h0) 0 hist)); lia. Qed.
Lemma put_get_quat rp q h : store_quat rp (put_quat rp q h) = q.
Proof.
  unfold store_quat, put_quat. rewrite (proj2 (Nat.leb_le rp rp)), (proj2 (Nat.leb_le rp (rp + 1))), (proj2 (Nat.leb_le rp (rp + 2))), (proj2 (Nat.leb_le rp (rp + 3))) by lia.
  rewrite (proj2 (Nat.ltb_lt rp (rp + 4))), (proj2 (Nat.ltb_lt (rp + 1) (rp + 4))), (proj2 (Nat.ltb_lt (rp + 2) (rp + 4))), (proj2 (Nat.ltb_lt (rp + 3) (rp + 4))) by lia. cbn [andb].
  replace (rp - rp)%nat with 0%nat by lia. replace (rp + 1 - rp)%nat with 1%nat by lia. replace (rp + 2 - rp)%nat with 2%nat by lia. replace (rp + 3 - rp)%nat with 3%nat by lia.
  destruct q; reflexivity.
Qed.
Lemma oinv_invol q : oinv (oinv q) = q.
Proof. destruct q as [a b c d]. unfold oinv, qconj; cbn [q0 q1 q2 q3]. f_equal; ring. Qed.
Lemma set_get_batch nh rp n qs hist hist' : (rp + 8 <= nh)%nat -> set_passive_batch nh rp n qs hist = Some hist' ->
  get_passive_batch nh rp n hist' = qs /\ get_active_batch nh rp n hist' = map oinv qs /\
  (forall i j, (i < n)%nat -> (j < rp \/ rp + 8 <= j < nh)%nat -> hist' (i * nh + j)%nat = hist (i * nh + j)%nat).
Proof.
  intros Hr H. unfold set_passive_batch in H. destruct (Nat.eqb_spec (length qs) n) as [El|]; [|discriminate]. injection H as <-.
  pose proof (fold_write nh n (fun i h => put_quat rp (oinv (nth i qs qdefault)) h) 0 hist) as (H1 & _ & _). cbv zeta beta in H1. set (a := fold_left _ _ hist) in *.
  assert (G : forall i, (i < n)%nat -> store_quat rp (part nh i a) = oinv (nth i qs qdefault)).
  { intros i Hi. rewrite <- (put_get_quat rp (oinv (nth i qs qdefault)) (part nh i hist)). unfold store_quat, part.
    rewrite !(proj2 (Nat.ltb_lt _ _)) by lia. rewrite !H1 by lia. reflexivity. }
  assert (L : forall f : quat -> quat, map (fun i => f (store_quat rp (part nh i a))) (seq 0 n) = map (fun q => f (oinv q)) qs).
  { intros f. transitivity (map (fun i => f (oinv (nth i qs qdefault))) (seq 0 n)).
    - apply map_ext_in. intros i Hi. apply in_seq in Hi. rewrite G by lia. reflexivity.
    - rewrite <- (map_map (fun i => nth i qs qdefault) (fun q => f (oinv q))). f_equal. subst n. clear. induction qs as [|q qs IH]; [reflexivity|].
      cbn [length seq map]. f_equal. rewrite <- seq_shift, map_map. exact IH. }
  split; [|split].
  - unfold get_passive_batch. rewrite (L oinv). rewrite <- (map_id qs) at 2. apply map_ext. apply oinv_invol.
  - unfold get_active_batch. exact (L (fun q => q)).
  - intros i j Hi Hj. rewrite H1 by lia. unfold put_quat.
    assert (E1 : andb (Nat.leb rp j) (Nat.ltb j (rp + 4)) = false) by (destruct Hj; [rewrite (proj2 (Nat.leb_gt rp j)) by lia; reflexivity|rewrite (proj2 (Nat.ltb_ge j (rp + 4))) by lia; apply Bool.andb_false_r]).
    assert (E2 : andb (Nat.leb (rp + 4) j) (Nat.ltb j (rp + 8)) = false) by (destruct Hj; [rewrite (proj2 (Nat.leb_gt (rp + 4) j)) by lia; reflexivity|rewrite (proj2 (Nat.ltb_ge j (rp + 8))) by lia; apply Bool.andb_false_r]).
    rewrite E1, E2. unfold part. rewrite (proj2 (Nat.ltb_lt j nh)) by lia. reflexivity.
Qed.
Lemma set_batch_size nh rp n qs hist : length qs <> n -> set_passive_batch nh rp n qs hist = None.
Proof. intros H. unfold set_passive_batch. destruct (Nat.eqb_spec (length qs) n); [contradiction|reflexivity]. Qed.

(** *** Weights *)
Lemma wsum_scal c l : wsum (map (fun x => x / c) l) = wsum l / c.
Proof. induction l as [|x l IH]; cbn [map wsum fold_right]; [unfold Rdiv; ring|]. fold (wsum (map (fun x => x / c) l)). fold (wsum l). rewrite IH. unfold Rdiv. ring. Qed.
Lemma wsum_repeat x n : wsum (repeat x n) = INR n * x.
Proof. induction n as [|n IH]; [cbn; ring|]. rewrite S_INR. cbn [repeat wsum fold_right]. fold (wsum (repeat x n)). rewrite IH. ring. Qed.
Lemma weights_normal n ws w : poly_weights n ws = Some w -> length w = n /\ wsum w = 1.
Proof.
  unfold poly_weights. intros H.
  set (o := match ws with [] => Some (repeat 1 n) | _ :: _ => if Nat.eqb (length ws) n then Some ws else None end) in H.
  assert (L : forall v, o = Some v -> length v = n).
  { intros v. unfold o. destruct ws; [intros E; injection E as <-; apply repeat_length|]. destruct (Nat.eqb_spec (length (r :: ws)) n) as [E|]; [|discriminate]. intros E'; injection E' as <-. exact E. }
  destruct o as [v|]; [|discriminate]. destruct (Req_EM_T (wsum v) 0) as [|N]; [discriminate|]. injection H as <-.
  split; [rewrite map_length; apply L; reflexivity|]. rewrite wsum_scal. field. exact N.
Qed.
Lemma weights_equal n w : poly_weights n [] = Some w -> forall i, (i < n)%nat -> nth i w 0 = / INR n.
Proof.
  unfold poly_weights. rewrite wsum_repeat. destruct (Req_EM_T (INR n * 1) 0) as [|N]; [discriminate|]. intros H; injection H as <-. intros i Hi.
  rewrite (nth_indep _ 0 (1 / (INR n * 1))) by (rewrite map_length, repeat_length; exact Hi).
  rewrite (map_nth (fun x => x / (INR n * 1))), nth_repeat. field. intros C. apply N. rewrite C. ring.
Qed.
Lemma weights_given n ws w : ws <> [] -> poly_weights n ws = Some w -> forall i, nth i w 0 = nth i ws 0 / wsum ws.
Proof.
  unfold poly_weights. destruct ws as [|x ws]; [contradiction|]. intros _. destruct (Nat.eqb_spec (length (x :: ws)) n); [|discriminate].
  set (l := x :: ws). destruct (Req_EM_T (wsum l) 0) as [|N]; [discriminate|]. intros H; injection H as <-. intros i.
  transitivity (nth i (map (fun x => x / wsum l) l) (0 / wsum l)); [f_equal; unfold Rdiv; ring|]. apply (map_nth (fun x => x / wsum l)).
Qed.
Lemma weights_rejected n ws : (ws <> [] /\ length ws <> n) \/ (ws = [] /\ n = 0%nat) \/ (length ws = n /\ wsum ws = 0) <-> poly_weights n ws = None.
Proof.
  unfold poly_weights. destruct ws as [|x ws].
  - rewrite wsum_repeat, Rmult_1_r. split.
    + intros [[C _]|[[_ ->]|[E _]]]; [contradiction| |cbn in E; subst n]; cbn [INR]; destruct (Req_EM_T 0 0) as [|N]; try reflexivity; exfalso; apply N; reflexivity.
    + destruct (Req_EM_T (INR n) 0) as [E|]; [|discriminate]. intros _. right. left. split; [reflexivity|]. apply INR_eq. exact E.
  - destruct (Nat.eqb_spec (length (x :: ws)) n) as [E|N].
    + destruct (Req_EM_T (wsum (x :: ws)) 0) as [Z|NZ].
      * split; [reflexivity|]. intros _. right. right. split; assumption.
      * split; [|discriminate]. intros [[_ C]|[[C _]|[_ C]]]; [contradiction|discriminate|contradiction].
    + split; [reflexivity|]. intros _. left. split; [discriminate|exact N].
Qed.

(** *** The store *)
Lemma block_start_app l1 l2 b : (length l1 <= b)%nat -> block_start (l1 ++ l2) b = (fold_right Nat.add 0 l1 + block_start l2 (b - length l1))%nat.
Proof.
  revert b. induction l1 as [|x l1 IH]; intros b Hb; cbn [app length fold_right]; [rewrite Nat.sub_0_r; reflexivity|].
  destruct b as [|b]; [cbn [length] in Hb; lia|]. cbn [block_start length] in *. rewrite IH by lia. cbn [Nat.sub]. lia.
Qed.
Lemma block_start_repeat x n l b : (b <= n)%nat -> block_start (repeat x n ++ l) b = (b * x)%nat.
Proof. revert b. induction n as [|n IH]; intros b Hb; [assert (b = 0%nat) by lia; subst; destruct l; reflexivity|]. destruct b as [|b]; [reflexivity|]. cbn [repeat app block_start]. rewrite IH by lia. cbn [Nat.mul]. reflexivity. Qed.
Lemma sum_repeat x n : fold_right Nat.add 0%nat (repeat x n) = (n * x)%nat.
Proof. induction n as [|n IH]; [reflexivity|]. cbn [repeat fold_right Nat.mul]. rewrite IH. reflexivity. Qed.
Lemma layout nh n i : (i < n)%nat ->
  block_start (poly_layout nh n) i = pl_h nh n i /\ block_start (poly_layout nh n) (n + i) = pl_s nh n i /\
  block_start (poly_layout nh n) (n + n + i) = pl_d nh n i /\ block_start (poly_layout nh n) (n + n + n + i) = pl_w nh n i.
Proof.
  intros Hi. unfold poly_layout, pl_h, pl_s, pl_d, pl_w. split; [apply block_start_repeat; lia|]. split; [|split].
  - rewrite block_start_app by (rewrite repeat_length; lia). rewrite repeat_length, sum_repeat. replace (n + i - n)%nat with i by lia. rewrite block_start_repeat by lia. reflexivity.
  - rewrite block_start_app by (rewrite repeat_length; lia). rewrite repeat_length, sum_repeat. rewrite block_start_app by (rewrite repeat_length; lia). rewrite repeat_length, sum_repeat.
    replace (n + n + i - n - n)%nat with i by lia. rewrite block_start_repeat by lia. nia.
  - rewrite !block_start_app by (rewrite !repeat_length; lia). rewrite !repeat_length, !sum_repeat. 
    replace (n + n + n + i - n - n - n)%nat with i by lia. rewrite <- (app_nil_r (repeat 3%nat n)). rewrite block_start_repeat by lia. nia.
Qed.
Lemma part_cut len i a v : (forall j, (j < len)%nat -> a (i * len + j)%nat = v j) -> part len i a = cut len v.
Proof. intros H. apply functional_extensionality. intros j. unfold part, cut. destruct (Nat.ltb j len) eqn:L; [|reflexivity]. apply H. apply Nat.ltb_lt. exact L. Qed.
Lemma init_holds nh rp n h0 qs : (0 < nh)%nat -> length qs = n -> holds nh n (poly_init nh rp n h0 qs)
  (fun i => {| x_d := fun _ => 0; x_w := fun _ => 0; x_s := fun _ => 0; x_h := cut nh (put_quat rp (nth i qs qdefault) h0) |}).
Proof.
  intros Hn _ i Hi. cbn [x_d x_w x_s x_h].
  assert (Z : forall len o, (n * nh <= o)%nat -> part len i (at_ o (poly_init nh rp n h0 qs)) = fun _ => 0).
  { intros len o Ho. apply functional_extensionality. intros j. unfold part. destruct (Nat.ltb j len); [|reflexivity]. unfold at_, poly_init.
    rewrite (proj2 (Nat.ltb_ge _ _)) by lia. reflexivity. }
  unfold pl_d, pl_w, pl_s. split; [apply Z; nia|]. split; [apply Z; nia|]. split; [apply Z; nia|].
  apply part_cut. intros j Hj. unfold poly_init. rewrite (proj2 (Nat.ltb_lt _ _)) by nia.
  replace ((i * nh + j) / nh)%nat with i by (apply (Nat.div_unique (i * nh + j) nh i j); lia).
  replace ((i * nh + j) mod nh)%nat with j by (apply (Nat.mod_unique (i * nh + j) nh i j); lia). reflexivity.
Qed.

(** *** The Taylor model *)
Definition taylor_bin (nh n : nat) (d1 w1 : vec) (T1 T0 t1 t0 : R) (h : vec) : bin :=
  {| b_d1 := fun p => d1 (p mod 6)%nat; b_d0 := at_ (pl_d nh n 0) h; b_w1 := fun p => w1 (p mod 3)%nat; b_w0 := at_ (pl_w nh n 0) h;
     b_T1 := fun _ => T1; b_T0 := fun _ => T0; b_t1 := t1; b_t0 := t0; b_s0 := at_ (pl_s nh n 0) h; b_h0 := at_ (pl_h nh n 0) h;
     b_u0 := vzero; b_p0 := vzero |}.
Lemma taylor_arg m nh n g h X i : holds nh n h X -> (i < n)%nat ->
  m (arg nh (taylor_bin nh n (g_d g) (g_w g) (g_T1 g) (g_T0 g) (g_t1 g) (g_t0 g) h) i) = solo_step m g (X i).
Proof.
  intros HX Hi. destruct (HX i Hi) as (Ed & Ew & Es & Eh). unfold solo_step, arg, taylor_bin. cbn [b_d1 b_d0 b_w1 b_w0 b_T1 b_T0 b_t1 b_t0 b_s0 b_h0 b_u0 b_p0]. f_equal.
  rewrite Ed, Ew, Es. change (at_ (pl_h nh n 0) h) with h. rewrite Eh.
  rewrite (part_cut 6 i (fun p => g_d g (p mod 6)%nat) (g_d g)) by (intros j Hj; rewrite Nat.add_comm, Nat.mod_add by lia; rewrite Nat.mod_small by exact Hj; reflexivity).
  rewrite (part_cut 3 i (fun p => g_w g (p mod 3)%nat) (g_w g)) by (intros j Hj; rewrite Nat.add_comm, Nat.mod_add by lia; rewrite Nat.mod_small by exact Hj; reflexivity).
  reflexivity.
Qed.
Lemma some_eq {A} (a b : A) : Some a = Some b -> b = a.
Proof. intros H; injection H as H; symmetry; exact H. Qed.
Lemma taylor_step_ok m nh n w order g h u p X t : Permutation order (seq 0 n) -> holds nh n h X ->
  taylor m nh n w order (g_d g) (g_w g) (g_T1 g) (g_T0 g) (g_t1 g) (g_t0 g) h u p = Some t ->
  exists r, (forall i, (i < n)%nat -> solo_step m g (X i) = Some (r i)) /\
    (forall j, (j < 6)%nat -> t_s t j = mean n w (fun i => c_s (r i) j)) /\
    (forall j, (j < 36)%nat -> t_A t j = mean n w (fun i => c_A (r i) j)) /\
    (forall j, (j < 18)%nat -> t_B t j = mean n w (fun i => c_B (r i) j)) /\
    t_u t = u + mean n w (fun i => c_u (r i)) /\ t_p t = p + mean n w (fun i => c_p (r i)) /\
    holds nh n (t_h t) (fun i => solo_next nh g (r i)).
Proof.
  intros P HX H. unfold taylor in H. fold (taylor_bin nh n (g_d g) (g_w g) (g_T1 g) (g_T0 g) (g_t1 g) (g_t0 g) h) in H.
  set (b := taylor_bin nh n (g_d g) (g_w g) (g_T1 g) (g_T0 g) (g_t1 g) (g_t0 g) h) in *.
  destruct (batch m nh order b _) as [o|] eqn:E; [|discriminate]. cbv zeta in H. apply some_eq in H. subst t. cbn [t_s t_h t_A t_B t_u t_p].
  destruct (batch_ok _ _ _ _ _ _ _ P E) as [HS _].
  set (r := fun i => match m (arg nh b i) with Some r => r | None => {| c_s := vzero; c_h := vzero; c_A := vzero; c_B := vzero; c_u := 0; c_p := 0 |} end).
  assert (Hr : forall i, (i < n)%nat -> m (arg nh b i) = Some (r i) /\ slice_is nh i (r i) o).
  { intros i Hi. destruct (HS i Hi) as (ri & Em & Sl). unfold r. rewrite Em. split; [reflexivity|exact Sl]. }
  exists r. split; [intros i Hi; rewrite <- (taylor_arg m nh n g h X i HX Hi); apply (Hr i Hi)|].
  split; [intros j Hj; apply rsum_ext; intros i Hi; f_equal; apply (proj1 (proj2 (Hr i Hi))); exact Hj|].
  split; [intros j Hj; apply rsum_ext; intros i Hi; f_equal; apply (proj1 (proj2 (proj2 (proj2 (Hr i Hi))))); exact Hj|].
  split; [intros j Hj; apply rsum_ext; intros i Hi; f_equal; apply (proj1 (proj2 (proj2 (proj2 (proj2 (Hr i Hi)))))); exact Hj|].
  split; [|split].
  - rewrite Rplus_comm. f_equal. apply rsum_ext. intros i Hi. f_equal. replace (i * 1 + 0)%nat with i by lia. destruct (proj2 (Hr i Hi)) as (_ & _ & _ & _ & A & _). exact A.
  - rewrite Rplus_comm. f_equal. apply rsum_ext. intros i Hi. f_equal. replace (i * 1 + 0)%nat with i by lia. destruct (proj2 (Hr i Hi)) as (_ & _ & _ & _ & _ & A). exact A.
  - intros i Hi. destruct (proj2 (Hr i Hi)) as (Ss & Sh & _). cbn [solo_next x_d x_w x_s x_h]. unfold pl_d, pl_w, pl_s.
    split; [|split; [|split]]; apply part_cut; intros j Hj; unfold at_.
    + rewrite (proj2 (Nat.ltb_ge _ (n * nh))) by nia. rewrite (proj2 (Nat.ltb_ge _ (n * (nh + 6)))) by nia. rewrite (proj2 (Nat.ltb_lt _ (n * (nh + 6 + 6)))) by nia.
      f_equal. replace (n * (nh + 6) + 0 * 6 + (i * 6 + j) - n * (nh + 6))%nat with (j + i * 6)%nat by lia. rewrite Nat.mod_add by lia. apply Nat.mod_small. exact Hj.
    + rewrite (proj2 (Nat.ltb_ge _ (n * nh))) by nia. rewrite (proj2 (Nat.ltb_ge _ (n * (nh + 6)))) by nia. rewrite (proj2 (Nat.ltb_ge _ (n * (nh + 6 + 6)))) by nia.
      f_equal. replace (n * (nh + 6 + 6) + 0 * 3 + (i * 3 + j) - n * (nh + 6 + 6))%nat with (j + i * 3)%nat by lia. rewrite Nat.mod_add by lia. apply Nat.mod_small. exact Hj.
    + rewrite (proj2 (Nat.ltb_ge _ (n * nh))) by nia. rewrite (proj2 (Nat.ltb_lt _ (n * (nh + 6)))) by nia.
      replace (n * nh + 0 * 6 + (i * 6 + j) - n * nh)%nat with (i * 6 + j)%nat by lia. apply Ss. exact Hj.
    + rewrite (proj2 (Nat.ltb_lt _ (n * nh))) by nia. apply Sh. exact Hj.
Qed.
Lemma taylor_step_fails m nh n w order g h u p X : Permutation order (seq 0 n) -> holds nh n h X ->
  (taylor m nh n w order (g_d g) (g_w g) (g_T1 g) (g_T0 g) (g_t1 g) (g_t0 g) h u p = None <-> exists i, (i < n)%nat /\ solo_step m g (X i) = None).
Proof.
  intros P HX. unfold taylor. fold (taylor_bin nh n (g_d g) (g_w g) (g_T1 g) (g_T0 g) (g_t1 g) (g_t0 g) h).
  set (b := taylor_bin nh n (g_d g) (g_w g) (g_T1 g) (g_T0 g) (g_t1 g) (g_t0 g) h).
  set (o := {| o_s := vzero; o_h := vzero; o_A := vzero; o_B := vzero; o_u := vzero; o_p := vzero |}).
  transitivity (batch m nh order b o = None); [destruct (batch m nh order b o); split; congruence|].
  rewrite (batch_fails m nh n order b o P). split; intros (i & Hi & E); exists i; (split; [exact Hi|]); [rewrite <- (taylor_arg m nh n g h X i HX Hi); exact E|].
  rewrite <- E. apply (taylor_arg m nh n g h X i HX Hi).
Qed.
Lemma taylor_averages m nh n w : forall gs h u p X ts, Forall (fun go => Permutation (snd go) (seq 0 n)) gs -> holds nh n h X ->
  taylor_run m nh n w gs h u p = Some ts ->
  exists rs, (forall i, (i < n)%nat -> solo_run m nh (map fst gs) (X i) = Some (rs i)) /\ averages n w rs u p ts.
Proof.
  induction gs as [|[g order] gs IH]; intros h u p X ts HF HX H; cbn [taylor_run] in H.
  - injection H as <-. exists (fun _ => []). split; [reflexivity|]. cbn. reflexivity.
  - inversion HF as [|? ? HP HF']; subst. cbn [snd] in HP.
    destruct (taylor _ _ _ _ _ _ _ _ _ _ _ _ _ _) as [t|] eqn:E; [|discriminate]. destruct (taylor_run _ _ _ _ gs _ _ _) as [ts'|] eqn:E2; [|discriminate]. injection H as <-.
    destruct (taylor_step_ok _ _ _ _ _ _ _ _ _ X _ HP HX E) as (r & Hr & Hs & HA & HB & Hu & Hp & Hh).
    destruct (IH _ _ _ _ _ HF' Hh E2) as (rs & Hrs & Hav). exists (fun i => r i :: rs i). split.
    + intros i Hi. cbn [map fst solo_run]. rewrite (Hr i Hi), (Hrs i Hi). reflexivity.
    + cbn [averages]. exists r, rs. split; [reflexivity|]. repeat (split; [assumption|]). exact Hav.
Qed.
Lemma taylor_fails m nh n w : forall gs h u p X, Forall (fun go => Permutation (snd go) (seq 0 n)) gs -> holds nh n h X ->
  (taylor_run m nh n w gs h u p = None <-> exists i, (i < n)%nat /\ solo_run m nh (map fst gs) (X i) = None).
Proof.
  intros gs h u p X HF HX. split.
  - revert h u p X HX. induction gs as [|[g order] gs IH]; intros h u p X HX H; cbn [taylor_run] in H; [discriminate|].
    inversion HF as [|? ? HP HF']; subst. cbn [snd] in HP.
    destruct (taylor _ _ _ _ _ _ _ _ _ _ _ _ _ _) as [t|] eqn:E.
    + destruct (taylor_run _ _ _ _ gs _ _ _) as [ts'|] eqn:E2; [discriminate|].
      destruct (taylor_step_ok _ _ _ _ _ _ _ _ _ X _ HP HX E) as (r & Hr & _ & _ & _ & _ & _ & Hh).
      destruct (IH HF' _ _ _ _ Hh E2) as (i & Hi & Ei). exists i. split; [exact Hi|]. cbn [map fst solo_run]. rewrite (Hr i Hi). rewrite Ei. reflexivity.
    + apply (taylor_step_fails _ _ _ _ _ _ _ _ _ X HP HX) in E. destruct E as (i & Hi & Ei). exists i. split; [exact Hi|]. cbn [map fst solo_run]. rewrite Ei. reflexivity.
  - intros (i & Hi & Ei). destruct (taylor_run m nh n w gs h u p) as [ts|] eqn:E; [|reflexivity].
    destruct (taylor_averages m nh n w gs h u p X ts HF HX E) as (rs & Hrs & _). rewrite (Hrs i Hi) in Ei. discriminate.
Qed.
