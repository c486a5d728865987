(** Contents of square matrices, products, and ownership of storage. *)
From Verif Require Import Base.
From Verif Require Import DenseModel.
From Coq Require Import List Lia Lra String.
Import ListNotations.
Open Scope R_scope.

(** The first row of block b. *)
Definition first_row (blocks : list nat) (b : nat) : nat := list_sum (firstn b blocks).

(** *** Loops that write *)
Lemma fold_keep {A} (f : cells -> A -> cells) l d k : (forall x d, In x l -> f d x k = d k) -> fold_left f l d k = d k.
Proof. revert d. induction l as [|x l IH]; intros d H; [reflexivity|]. cbn [fold_left]. rewrite IH by (intros; apply H; right; assumption). apply H. left. reflexivity. Qed.
Lemma fold_hit (f : cells -> nat -> cells) l d k x0 v : In x0 l -> (forall d, f d x0 k = v) -> (forall x d, In x l -> x <> x0 -> f d x k = d k) -> fold_left f l d k = v.
Proof.
  revert d. induction l as [|x l IH]; intros d Hin H0 H; [contradiction|]. cbn [fold_left].
  destruct (in_dec Nat.eq_dec x0 l) as [G|G]; [apply IH; [exact G|exact H0|intros; apply H; [right; assumption|assumption]]|].
  destruct Hin as [->|Hin]; [|contradiction]. rewrite fold_keep; [apply H0|]. intros y d' Hy. apply H; [right; exact Hy|]. intros ->. contradiction.
Qed.
Lemma loop_keep (f : nat -> cells -> cells) a b d k : (forall i d, (a <= i < b)%nat -> f i d k = d k) -> loop a b f d k = d k.
Proof. intros H. unfold loop. apply fold_keep. intros x d' Hx. apply in_seq in Hx. apply H. lia. Qed.
Lemma loop_hit (f : nat -> cells -> cells) a b d k i v : (a <= i < b)%nat -> (forall d, f i d k = v) -> (forall j d, (a <= j < b)%nat -> j <> i -> f j d k = d k) -> loop a b f d k = v.
Proof.
  intros Hi H0 H. unfold loop. apply (fold_hit (fun x i => f i x) _ _ _ i); [apply in_seq; lia|exact H0|]. intros x d' Hx Hne. apply in_seq in Hx. apply H; [lia|exact Hne].
Qed.
Lemma put_at d k v : put d k v k = v.
Proof. unfold put. now rewrite Nat.eqb_refl. Qed.
Lemma put_off d k k' v : k' <> k -> put d k v k' = d k'.
Proof. intros H. unfold put. destruct (Nat.eqb_spec k' k); [contradiction|reflexivity]. Qed.
Lemma cindex_inj m i j i' j' : (j < m)%nat -> (j' < m)%nat -> cindex i j m = cindex i' j' m -> i = i' /\ j = j'.
Proof. unfold cindex. intros Hj Hj' E. assert (i = i') by nia. subst. split; [reflexivity|lia]. Qed.
Lemma cindex_lt m i j : (i < m)%nat -> (j < m)%nat -> (cindex i j m < m * m)%nat.
Proof. unfold cindex. nia. Qed.
Lemma fill_in n v d k : (k < n)%nat -> fill n v d k = v.
Proof. intros H. unfold fill. destruct (Nat.ltb_spec k n); [reflexivity|lia]. Qed.

(** *** Offsets *)
Lemma nth_partial l : forall acc b, (b < List.length l)%nat -> nth b (partial_sum acc l) 0%nat = (acc + list_sum (firstn (S b) l))%nat.
Proof.
  induction l as [|x l IH]; intros acc b Hb; [cbn in Hb; lia|]. cbn [partial_sum]. destruct b as [|b]; [cbn; lia|]. cbn [nth]. rewrite IH by (cbn in Hb; lia). change (firstn (S (S b)) (x :: l)) with (x :: firstn (S b) l). change (list_sum (x :: firstn (S b) l)) with (x + list_sum (firstn (S b) l))%nat. lia.
Qed.
Lemma nth_offsets l b : (b <= List.length l)%nat -> nth b (offsets l) 0%nat = first_row l b.
Proof. intros H. unfold offsets, first_row. destruct b as [|b]; [reflexivity|]. cbn [nth]. rewrite nth_partial by lia. lia. Qed.
Lemma list_sum_app l k : list_sum (l ++ k) = (list_sum l + list_sum k)%nat.
Proof. induction l as [|x l IH]; [reflexivity|]. cbn [List.app]. change (list_sum (x :: l ++ k)) with (x + list_sum (l ++ k))%nat. change (list_sum (x :: l)) with (x + list_sum l)%nat. lia. Qed.
Lemma firstn_S_nth (l : list nat) b : (b < List.length l)%nat -> firstn (S b) l = firstn b l ++ [nth b l 0%nat].
Proof. revert b. induction l as [|x l IH]; intros b Hb; [cbn in Hb; lia|]. destruct b as [|b]; [reflexivity|]. cbn [firstn nth List.app]. f_equal. apply IH. cbn in Hb. lia. Qed.
Lemma first_row_S l b : (b < List.length l)%nat -> first_row l (S b) = (first_row l b + nth b l 0)%nat.
Proof. intros H. unfold first_row. rewrite firstn_S_nth by exact H. rewrite list_sum_app. cbn. lia. Qed.
Lemma first_row_mono l a b : (a <= b <= List.length l)%nat -> (first_row l a <= first_row l b)%nat.
Proof. intros [H1 H2]. revert H2. induction H1 as [|b H1 IH]; intros H2; [lia|]. rewrite first_row_S by lia. specialize (IH ltac:(lia)). lia. Qed.
Lemma first_row_all l : first_row l (List.length l) = list_sum l.
Proof. unfold first_row. now rewrite firstn_all. Qed.
Lemma fold_add l acc : fold_left Nat.add l acc = (acc + list_sum l)%nat.
Proof. revert acc. induction l as [|x l IH]; intros acc; cbn [fold_left]; [cbn; lia|]. rewrite IH. change (list_sum (x :: l)) with (x + list_sum l)%nat. lia. Qed.
Lemma check_ok m l : check_blocks m l = true <-> list_sum l = m.
Proof. unfold check_blocks. rewrite fold_add. cbn. apply Nat.eqb_eq. Qed.
Lemma first_row_apart l b b' i : (b < List.length l)%nat -> (b' < List.length l)%nat -> (first_row l b <= i < first_row l (S b))%nat -> (first_row l b' <= i < first_row l (S b'))%nat -> b = b'.
Proof.
  intros Hb Hb' H H'. destruct (Nat.lt_trichotomy b b') as [G|[G|G]]; [|exact G|].
  - pose proof (first_row_mono l (S b) b' ltac:(lia)). lia.
  - pose proof (first_row_mono l (S b') b ltac:(lia)). lia.
Qed.
(** Every row belongs to a block. *)
Lemma row_block l i : (i < list_sum l)%nat -> exists b a, (b < List.length l)%nat /\ (a < nth b l 0)%nat /\ i = (first_row l b + a)%nat.
Proof.
  rewrite <- first_row_all. assert (G : forall n, (n <= List.length l)%nat -> (i < first_row l n)%nat -> exists b a, (b < n)%nat /\ (a < nth b l 0)%nat /\ i = (first_row l b + a)%nat).
  { induction n as [|n IH]; intros Hn Hi; [cbn in Hi; lia|]. rewrite first_row_S in Hi by lia. destruct (Nat.lt_ge_cases i (first_row l n)) as [G|G].
    - destruct (IH ltac:(lia) G) as (b & a & A & B & C). exists b, a. repeat split; [lia|exact B|exact C].
    - exists n, (i - first_row l n)%nat. repeat split; lia. }
  intros Hi. apply G; [lia|exact Hi].
Qed.

(** *** Each kind of matrix *)
Lemma block_entry m data blocks d d' : setup_block m data blocks d = Some d' ->
  forall bi bj i j, (bi < List.length blocks)%nat -> (bj < List.length blocks)%nat -> (i < nth bi blocks 0)%nat -> (j < nth bj blocks 0)%nat ->
  d' (cindex (first_row blocks bi + i) (first_row blocks bj + j) m) = nth (bi * List.length blocks + bj) data 0.
Proof.
  unfold setup_block. set (nb := List.length blocks). cbv beta zeta. pose (off := fun b => nth b (offsets blocks) 0%nat).
  assert (Hoff : forall b, (b <= nb)%nat -> off b = first_row blocks b) by (intros b Hb; apply nth_offsets; exact Hb). cbv zeta.
  change (fun bi : nat => loop 0 nb (fun bj => loop (nth bi (offsets blocks) 0%nat) (nth (S bi) (offsets blocks) 0%nat) (fun i => loop (nth bj (offsets blocks) 0%nat) (nth (S bj) (offsets blocks) 0%nat) (fun j d => put d (cindex i j m) (nth (cindex bi bj nb) data 0)))))
    with (fun bi : nat => loop 0 nb (fun bj => loop (off bi) (off (S bi)) (fun i => loop (off bj) (off (S bj)) (fun j d => put d (cindex i j m) (nth (cindex bi bj nb) data 0))))). clearbody off. destruct (Nat.eqb_spec (List.length data) (nb * nb)) as [El|]; cbn [negb]; [|discriminate].
  destruct (check_blocks m blocks) eqn:Ec; cbn [negb]; [|discriminate]. apply check_ok in Ec. intros E bi bj i j Hbi Hbj Hi Hj. inversion E as [E']. clear E E'.
  pose proof (first_row_S blocks bi Hbi) as Si. pose proof (first_row_S blocks bj Hbj) as Sj.
  assert (B : forall b, (b < nb)%nat -> (first_row blocks (S b) <= m)%nat) by (intros b Hb; rewrite <- Ec, <- first_row_all; apply first_row_mono; unfold nb in Hb; lia).
  pose proof (B bi Hbi). pose proof (B bj Hbj).
  apply (loop_hit _ _ _ _ _ bi); [lia| |].
  - intros d1. apply (loop_hit _ _ _ _ _ bj); [lia| |].
    + intros d2. cbv beta; rewrite !Hoff by lia. apply (loop_hit _ _ _ _ _ (first_row blocks bi + i)%nat); [lia| |].
      * intros d3. apply (loop_hit _ _ _ _ _ (first_row blocks bj + j)%nat); [lia| |].
        -- intros d4. rewrite put_at. unfold cindex. f_equal. lia.
        -- intros j' d4 Hj' Hne. apply put_off. intros G. apply cindex_inj in G; lia.
      * intros i' d3 Hi' Hne. apply loop_keep. intros j' d4 Hj'. apply put_off. intros G. apply cindex_inj in G; lia.
    + intros bj' d2 Hbj' Hne. cbv beta; rewrite !Hoff by lia. pose proof (B bj' ltac:(lia)). apply loop_keep. intros i' d3 Hi'. apply loop_keep. intros j' d4 Hj'. apply put_off. intros G.
      apply cindex_inj in G; [|lia|lia]. destruct G as [_ G]. apply Hne. apply (first_row_apart blocks bj' bj j'); try assumption; lia.
  - intros bi' d1 Hbi' Hne. apply loop_keep. intros bj' d2 Hbj'. cbv beta; rewrite !Hoff by lia. pose proof (B bj' ltac:(lia)). apply loop_keep. intros i' d3 Hi'. apply loop_keep. intros j' d4 Hj'. apply put_off. intros G.
    apply cindex_inj in G; [|lia|lia]. destruct G as [G _]. apply Hne. apply (first_row_apart blocks bi' bi i'); try assumption; lia.
Qed.
Lemma diag_entry m (v : nat -> R) d i j : (i < m)%nat -> (j < m)%nat ->
  fold_left (fun d i => put d (cindex i i m) (v i)) (seq 0 m) (fill (m * m) 0 d) (cindex i j m) = if Nat.eqb i j then v i else 0.
Proof.
  intros Hi Hj. destruct (Nat.eqb_spec i j) as [->|Hne].
  - apply (fold_hit _ _ _ _ j); [apply in_seq; lia|intros; apply put_at|]. intros x d' Hx Hne. apply in_seq in Hx. apply put_off. intros G. apply cindex_inj in G; lia.
  - rewrite fold_keep; [apply fill_in, cindex_lt; assumption|]. intros x d' Hx. apply in_seq in Hx. apply put_off. intros G. apply cindex_inj in G; lia.
Qed.
(** the diagonal blocks *)
Lemma dblock_inner m v n : forall c d, fold_left (fun (z : nat * cells) (_ : nat) => let '(c, d) := z in (S c, put d (cindex c c m) v)) (seq 0 n) (c, d) =
  ((c + n)%nat, fold_left (fun d a => put d (cindex (c + a) (c + a) m) v) (seq 0 n) d).
Proof.
  induction n as [|n IH]; intros c d; [cbn; f_equal; lia|]. rewrite seq_S, !fold_left_app, IH. cbn [fold_left]. cbn. f_equal. lia.
Qed.
Definition dstep (m : nat) (data : list R) := fun (x : nat * nat * cells) bs => let '(ci, cb, d) := x in
    let y := fold_left (fun (z : nat * cells) (_ : nat) => let '(c, d) := z in (S c, put d (cindex c c m) (nth cb data 0))) (seq 0 bs) (ci, d) in (fst y, S cb, snd y).
Lemma dblocks_all m data blocks d0 : (list_sum blocks <= m)%nat -> (forall i j, (i < m)%nat -> (j < m)%nat -> d0 (cindex i j m) = 0) -> forall n, (n <= List.length blocks)%nat ->
  exists d, fold_left (dstep m data) (firstn n blocks) (0%nat, 0%nat, d0) = (first_row blocks n, n, d) /\
  (forall i j, (i < m)%nat -> (j < m)%nat -> i <> j \/ (first_row blocks n <= i)%nat -> d (cindex i j m) = 0) /\
  forall b a, (b < n)%nat -> (a < nth b blocks 0)%nat -> d (cindex (first_row blocks b + a) (first_row blocks b + a) m) = nth b data 0.
Proof.
  intros Hs H0. induction n as [|n IH]; intros Hn.
  - exists d0. split; [reflexivity|]. split; [intros; apply H0; assumption|intros; lia].
  - destruct (IH ltac:(lia)) as (d & E & Z & V). rewrite firstn_S_nth by lia. rewrite fold_left_app, E. cbn [fold_left]. unfold dstep. rewrite dblock_inner. cbn [fst snd].
    pose proof (first_row_S blocks n ltac:(lia)) as S1. assert (Hm : (first_row blocks (S n) <= m)%nat) by (transitivity (list_sum blocks); [rewrite <- first_row_all; apply first_row_mono; lia|exact Hs]).
    eexists. split; [rewrite S1; reflexivity|]. split.
    + intros i j Hi Hj Hc. rewrite fold_keep; [apply Z; [assumption|assumption|destruct Hc; [left; assumption|right; lia]]|].
      intros a d' Ha. apply in_seq in Ha. apply put_off. intros G. apply cindex_inj in G; [|lia|lia]. lia.
    + intros b a Hb Ha. destruct (Nat.eq_dec b n) as [->|Hne].
      * apply (fold_hit _ _ _ _ a); [apply in_seq; lia|intros; apply put_at|]. intros x d' Hx Hxa. apply in_seq in Hx. apply put_off. intros G. apply cindex_inj in G; lia.
      * pose proof (first_row_S blocks b ltac:(lia)). pose proof (first_row_mono blocks (S b) n ltac:(lia)). rewrite fold_keep; [apply V; [lia|exact Ha]|].
        intros x d' Hx. apply in_seq in Hx. apply put_off. intros G. apply cindex_inj in G; lia.
Qed.
Lemma diagonal_blocks_entry m data blocks d d' : setup_diagonal_blocks m data blocks d = Some d' ->
  (forall i j, (i < m)%nat -> (j < m)%nat -> i <> j -> d' (cindex i j m) = 0) /\
  forall b a, (b < List.length blocks)%nat -> (a < nth b blocks 0)%nat -> d' (cindex (first_row blocks b + a) (first_row blocks b + a) m) = nth b data 0.
Proof.
  unfold setup_diagonal_blocks. destruct (Nat.eqb (List.length blocks) (List.length data)); cbn [negb]; [|discriminate].
  destruct (check_blocks m blocks) eqn:Ec; cbn [negb]; [|discriminate]. apply check_ok in Ec. intros E. assert (E' : snd (fold_left (dstep m data) blocks (0%nat, 0%nat, fill (m * m) 0 d)) = d') by (inversion E; reflexivity). clear E.
  destruct (dblocks_all m data blocks (fill (m * m) 0 d) ltac:(lia) ltac:(intros; apply fill_in, cindex_lt; assumption) (List.length blocks) ltac:(lia)) as (d1 & Ed & Z & V).
  rewrite firstn_all in Ed. pose proof (f_equal snd Ed) as Ed2. assert (E1 : d1 = d') by (rewrite <- E'; symmetry; exact Ed2). subst d1.
  split; [intros; apply Z; [assumption|assumption|left; assumption]|exact V].
Qed.

(** *** The whole constructor *)
Definition same_block (blocks : list nat) (i j bi bj : nat) : Prop :=
  (bi < List.length blocks)%nat /\ (bj < List.length blocks)%nat /\ (first_row blocks bi <= i < first_row blocks (S bi))%nat /\ (first_row blocks bj <= j < first_row blocks (S bj))%nat.
Lemma square_dims m ty data blocks d A : square m ty data blocks d = Some A -> mx_m A = m /\ mx_n A = m.
Proof. unfold square. destruct (if String.eqb ty "zero" then _ else _); cbn [option_map]; [intros E; inversion E; split; reflexivity|discriminate]. Qed.
Lemma square_zero m data blocks d : exists A, square m "zero" data blocks d = Some A /\ forall i j, (i < m)%nat -> (j < m)%nat -> mx_at A i j = 0.
Proof. eexists. split; [reflexivity|]. intros i j Hi Hj. apply fill_in, cindex_lt; assumption. Qed.
Lemma square_identity m data blocks d : exists A, square m "identity" data blocks d = Some A /\ forall i j, (i < m)%nat -> (j < m)%nat -> mx_at A i j = if Nat.eqb i j then 1 else 0.
Proof. eexists. split; [reflexivity|]. intros i j Hi Hj. apply (diag_entry m (fun _ => 1)); assumption. Qed.
Lemma square_diagonal m data blocks d : (square m "diagonal" data blocks d = None <-> List.length data <> m) /\
  forall A, square m "diagonal" data blocks d = Some A -> forall i j, (i < m)%nat -> (j < m)%nat -> mx_at A i j = if Nat.eqb i j then nth i data 0 else 0.
Proof.
  change (square m "diagonal" data blocks d) with (option_map (fun d => {| mx_m := m; mx_n := m; mx_d := d |}) (setup_diagonal m data d)). unfold setup_diagonal.
  destruct (Nat.eqb_spec (List.length data) m) as [E|E]; cbn [option_map].
  - split; [split; [discriminate|contradiction]|]. intros A HA i j Hi Hj. inversion HA; subst A. apply (diag_entry m (fun i => nth i data 0)); assumption.
  - split; [split; [intros _; exact E|reflexivity]|discriminate].
Qed.
Lemma square_diagonal_blocks m data blocks d : (square m "diagonal_blocks" data blocks d = None <-> List.length data <> List.length blocks \/ list_sum blocks <> m) /\
  forall A, square m "diagonal_blocks" data blocks d = Some A -> forall i j bi bj, same_block blocks i j bi bj -> mx_at A i j = if Nat.eqb i j then nth bi data 0 else 0.
Proof.
  change (square m "diagonal_blocks" data blocks d) with (option_map (fun d => {| mx_m := m; mx_n := m; mx_d := d |}) (setup_diagonal_blocks m data blocks d)). split.
  - unfold setup_diagonal_blocks. destruct (Nat.eqb_spec (List.length blocks) (List.length data)) as [E|E]; cbn [negb option_map].
    + destruct (check_blocks m blocks) eqn:Ec; cbn [negb option_map].
      * apply check_ok in Ec. split; [discriminate|]. intros [G|G]; [congruence|contradiction].
      * split; [intros _; right; intros G; apply check_ok in G; congruence|reflexivity].
    + split; [intros _; left; congruence|reflexivity].
  - intros A HA i j bi bj (Hbi & Hbj & Hi & Hj). destruct (setup_diagonal_blocks m data blocks d) as [d'|] eqn:E; cbn [option_map] in HA; [|discriminate]. inversion HA; subst A. unfold mx_at. cbn [mx_d mx_m].
    assert (Ec : list_sum blocks = m). { revert E. unfold setup_diagonal_blocks. destruct (Nat.eqb _ _); cbn [negb]; [|discriminate]. destruct (check_blocks m blocks) eqn:Ec; cbn [negb]; [|discriminate]. intros _. apply check_ok. exact Ec. }
    destruct (diagonal_blocks_entry m data blocks d d' E) as [Z V].
    pose proof (first_row_mono blocks (S bi) (List.length blocks) ltac:(lia)) as M1. pose proof (first_row_mono blocks (S bj) (List.length blocks) ltac:(lia)) as M2. rewrite first_row_all in M1, M2.
    destruct (Nat.eqb_spec i j) as [->|Hne]; [|apply Z; lia].
    pose proof (first_row_S blocks bi Hbi). specialize (V bi (j - first_row blocks bi)%nat Hbi ltac:(lia)). replace (first_row blocks bi + (j - first_row blocks bi))%nat with j in V by lia. exact V.
Qed.
Lemma square_block m data blocks d : (square m "block" data blocks d = None <-> List.length data <> (List.length blocks * List.length blocks)%nat \/ list_sum blocks <> m) /\
  forall A, square m "block" data blocks d = Some A -> forall i j bi bj, same_block blocks i j bi bj -> mx_at A i j = nth (bi * List.length blocks + bj) data 0.
Proof.
  change (square m "block" data blocks d) with (option_map (fun d => {| mx_m := m; mx_n := m; mx_d := d |}) (setup_block m data blocks d)). split.
  - unfold setup_block. cbv zeta. destruct (Nat.eqb_spec (List.length data) (List.length blocks * List.length blocks)) as [E|E]; cbn [negb option_map].
    + destruct (check_blocks m blocks) eqn:Ec; cbn [negb option_map].
      * apply check_ok in Ec. split; [discriminate|]. intros [G|G]; [congruence|contradiction].
      * split; [intros _; right; intros G; apply check_ok in G; congruence|reflexivity].
    + split; [intros _; left; exact E|reflexivity].
  - intros A HA i j bi bj (Hbi & Hbj & Hi & Hj). destruct (setup_block m data blocks d) as [d'|] eqn:E; cbn [option_map] in HA; [|discriminate]. inversion HA; subst A. unfold mx_at. cbn [mx_d mx_m].
    pose proof (first_row_S blocks bi Hbi). pose proof (first_row_S blocks bj Hbj).
    pose proof (block_entry m data blocks d d' E bi bj (i - first_row blocks bi)%nat (j - first_row blocks bj)%nat Hbi Hbj ltac:(lia) ltac:(lia)) as V.
    replace (first_row blocks bi + (i - first_row blocks bi))%nat with i in V by lia. replace (first_row blocks bj + (j - first_row blocks bj))%nat with j in V by lia. exact V.
Qed.
(** every place of the matrix lies in exactly one pair of blocks *)
Lemma same_block_exists blocks i j : (i < list_sum blocks)%nat -> (j < list_sum blocks)%nat -> exists! p, same_block blocks i j (fst p) (snd p).
Proof.
  intros Hi Hj. destruct (row_block blocks i Hi) as (bi & a & A1 & A2 & A3). destruct (row_block blocks j Hj) as (bj & b & B1 & B2 & B3).
  exists (bi, bj). cbn [fst snd]. split.
  - cbn [fst snd]. unfold same_block. pose proof (first_row_S blocks bi A1). pose proof (first_row_S blocks bj B1). repeat split; try assumption; lia.
  - intros [p q] (C1 & C2 & C3 & C4). cbn [fst snd] in *. pose proof (first_row_S blocks bi A1). pose proof (first_row_S blocks bj B1).
    f_equal; [apply (first_row_apart blocks bi p i); try assumption; lia|apply (first_row_apart blocks bj q j); try assumption; lia].
Qed.
Lemma square_dense m data blocks d : (square m "dense" data blocks d = None <-> List.length data <> (m * m)%nat) /\
  forall A, square m "dense" data blocks d = Some A -> forall i j, (i < m)%nat -> (j < m)%nat -> mx_at A i j = nth (i * m + j) data 0.
Proof.
  change (square m "dense" data blocks d) with (option_map (fun d => {| mx_m := m; mx_n := m; mx_d := d |}) (if Nat.eqb (List.length data) (m * m) then Some (fun k => if Nat.ltb k (m * m) then nth k data 0 else d k) else None)).
  destruct (Nat.eqb_spec (List.length data) (m * m)) as [E|E]; cbn [option_map].
  - split; [split; [discriminate|contradiction]|]. intros A HA i j Hi Hj. inversion HA; subst A. unfold mx_at. cbn [mx_d mx_m]. pose proof (cindex_lt m i j Hi Hj). destruct (Nat.ltb_spec (cindex i j m) (m * m)); [|lia]. unfold cindex. f_equal. lia.
  - split; [split; [intros _; exact E|reflexivity]|discriminate].
Qed.
Lemma square_other m ty data blocks d : ~ In ty ["zero"; "identity"; "diagonal"; "diagonal_blocks"; "block"; "dense"]%string -> square m ty data blocks d = None.
Proof.
  intros H. unfold square. repeat match goal with |- context [String.eqb ty ?s] => destruct (String.eqb_spec ty s) as [->|]; [exfalso; apply H; cbn; tauto|] end. reflexivity.
Qed.
Lemma same_block_one blocks i j bi bj bi' bj' : same_block blocks i j bi bj -> same_block blocks i j bi' bj' -> (bi, bj) = (bi', bj').
Proof. intros (A1 & A2 & A3 & A4) (B1 & B2 & B3 & B4). f_equal; [apply (first_row_apart blocks bi bi' i)|apply (first_row_apart blocks bj bj' j)]; assumption. Qed.
Lemma clean_of m (f : cells -> option matrix) (N : Prop) (V : nat -> nat -> R -> Prop) : (forall i j, (i < m)%nat -> (j < m)%nat -> forall v w, V i j v -> V i j w -> v = w) -> (forall d, f d = None <-> N) ->
  (forall d A, f d = Some A -> forall i j, (i < m)%nat -> (j < m)%nat -> V i j (mx_at A i j)) ->
  forall d1 d2, match f d1, f d2 with Some A, Some B => forall i j, (i < m)%nat -> (j < m)%nat -> mx_at A i j = mx_at B i j | None, None => True | _, _ => False end.
Proof.
  intros HV HN HA d1 d2. destruct (f d1) as [A|] eqn:E1; destruct (f d2) as [B|] eqn:E2; try exact I.
  - intros i j Hi Hj. apply (HV i j Hi Hj); [apply (HA d1)|apply (HA d2)]; assumption.
  - apply HN in E2. apply (HN d1) in E2. congruence.
  - apply HN in E1. apply (HN d2) in E1. congruence.
Qed.
(** what happened to be in the memory does not matter *)
Lemma square_clean m ty data blocks d1 d2 : match square m ty data blocks d1, square m ty data blocks d2 with
  | Some A, Some B => forall i j, (i < m)%nat -> (j < m)%nat -> mx_at A i j = mx_at B i j | None, None => True | _, _ => False end.
Proof.
  destruct (in_dec string_dec ty ["zero"; "identity"; "diagonal"; "diagonal_blocks"; "block"; "dense"]%string) as [H|H]; [|rewrite !square_other by exact H; exact I].
  destruct H as [<-|[<-|[<-|[<-|[<-|[<-|[]]]]]]].
  - destruct (square_zero m data blocks d1) as (A & -> & VA). destruct (square_zero m data blocks d2) as (B & -> & VB). intros. rewrite VA, VB by assumption. reflexivity.
  - destruct (square_identity m data blocks d1) as (A & -> & VA). destruct (square_identity m data blocks d2) as (B & -> & VB). intros. rewrite VA, VB by assumption. reflexivity.
  - apply (clean_of m (square m "diagonal" data blocks) (List.length data <> m) (fun i j v => v = if Nat.eqb i j then nth i data 0 else 0)); try (intros; congruence).
    + intros d. apply square_diagonal.
    + intros d A E i j Hi Hj. apply (proj2 (square_diagonal m data blocks d) A E); assumption.
  - apply (clean_of m (square m "diagonal_blocks" data blocks) (List.length data <> List.length blocks \/ list_sum blocks <> m) (fun i j v => exists bi bj, same_block blocks i j bi bj /\ v = if Nat.eqb i j then nth bi data 0 else 0)).
    + intros i j Hi Hj v w (bi & bj & S1 & ->) (bi' & bj' & S2 & ->). pose proof (same_block_one _ _ _ _ _ _ _ S1 S2) as Ep. inversion Ep. reflexivity.
    + intros d. apply square_diagonal_blocks.
    + intros d A E i j Hi Hj. assert (Hs : list_sum blocks = m) by (destruct (Nat.eq_dec (list_sum blocks) m) as [G|G]; [exact G|]; assert (square m "diagonal_blocks" data blocks d = None) by (apply square_diagonal_blocks; right; exact G); congruence).
      destruct (same_block_exists blocks i j ltac:(lia) ltac:(lia)) as ([bi bj] & HS & _). exists bi, bj. split; [exact HS|]. apply (proj2 (square_diagonal_blocks m data blocks d) A E i j bi bj HS).
  - apply (clean_of m (square m "block" data blocks) (List.length data <> (List.length blocks * List.length blocks)%nat \/ list_sum blocks <> m) (fun i j v => exists bi bj, same_block blocks i j bi bj /\ v = nth (bi * List.length blocks + bj) data 0)).
    + intros i j Hi Hj v w (bi & bj & S1 & ->) (bi' & bj' & S2 & ->). pose proof (same_block_one _ _ _ _ _ _ _ S1 S2) as Ep. inversion Ep. reflexivity.
    + intros d. apply square_block.
    + intros d A E i j Hi Hj. assert (Hs : list_sum blocks = m) by (destruct (Nat.eq_dec (list_sum blocks) m) as [G|G]; [exact G|]; assert (square m "block" data blocks d = None) by (apply square_block; right; exact G); congruence).
      destruct (same_block_exists blocks i j ltac:(lia) ltac:(lia)) as ([bi bj] & HS & _). exists bi, bj. split; [exact HS|]. apply (proj2 (square_block m data blocks d) A E i j bi bj HS).
  - apply (clean_of m (square m "dense" data blocks) (List.length data <> (m * m)%nat) (fun i j v => v = nth (i * m + j) data 0)); try (intros; congruence).
    + intros d. apply square_dense.
    + intros d A E i j Hi Hj. apply (proj2 (square_dense m data blocks d) A E); assumption.
Qed.

(** *** Products *)
Lemma mx_dot_sizes A x : mx_dot A x = None <-> List.length x <> mx_n A.
Proof. unfold mx_dot. destruct (Nat.eqb_spec (List.length x) (mx_n A)); split; congruence. Qed.
(** for square matrices the product uses the entries *)
Lemma mx_dot_square A x y : mx_m A = mx_n A -> mx_dot A x = Some y -> List.length y = mx_m A /\ forall i, (i < mx_m A)%nat -> nth i y 0 = rsum (mx_n A) (fun j => mx_at A i j * nth j x 0).
Proof.
  intros Hs. unfold mx_dot. destruct (Nat.eqb (List.length x) (mx_n A)); [|discriminate]. intros E. inversion E as [E']. clear E E'. split; [rewrite map_length, seq_length; reflexivity|].
  intros i Hi. unfold mx_at. rewrite Hs. rewrite (nth_indep _ 0 (rsum (mx_n A) (fun j => mx_d A (cindex 0 j (mx_n A)) * nth j x 0))) by (rewrite map_length, seq_length; lia).
  rewrite (map_nth (fun i => rsum (mx_n A) (fun j => mx_d A (cindex i j (mx_n A)) * nth j x 0))). rewrite seq_nth by lia. reflexivity.
Qed.
(** writing an entry changes that entry only *)
Lemma mx_set_get A i j i' j' v : mx_m A = mx_n A -> (j < mx_n A)%nat -> (j' < mx_n A)%nat -> mx_at (mx_set A i j v) i' j' = if andb (Nat.eqb i' i) (Nat.eqb j' j) then v else mx_at A i' j'.
Proof.
  intros Hs Hj Hj'. unfold mx_at, mx_set. cbn [mx_d mx_m]. destruct (Nat.eqb_spec i' i) as [->|Hi]; cbn [andb].
  - destruct (Nat.eqb_spec j' j) as [->|Hne]; [apply put_at|]. apply put_off. intros G. apply cindex_inj in G; lia.
  - apply put_off. intros G. apply cindex_inj in G; lia.
Qed.
(** with more rows than columns entries lie outside the storage; otherwise two different ones share a place *)
Lemma mx_outside m n d : (n < m)%nat -> (0 < n)%nat -> exists i j, (i < m)%nat /\ (j < n)%nat /\ (m * n <= cindex i j (mx_m {| mx_m := m; mx_n := n; mx_d := d |}))%nat.
Proof. intros H Hn. exists (m - 1)%nat, 0%nat. split; [lia|]. split; [lia|]. cbn [mx_m]. unfold cindex. nia. Qed.
Lemma mx_shared m n d v : (1 < m)%nat -> (m < n)%nat -> let A := {| mx_m := m; mx_n := n; mx_d := d |} in
  exists i j i' j', (i < m)%nat /\ (j < n)%nat /\ (i' < m)%nat /\ (j' < n)%nat /\ (i, j) <> (i', j') /\ mx_at (mx_set A i j v) i' j' = v.
Proof.
  intros Hm H A. exists 1%nat, 0%nat, 0%nat, m. split; [lia|]. split; [lia|]. split; [lia|]. split; [lia|]. split; [intros E; inversion E|].
  unfold mx_at, mx_set. cbn [mx_d mx_m A]. replace (cindex 0 m m) with (cindex 1 0 m) by (unfold cindex; lia). apply put_at.
Qed.
(** and the product does not use the entries *)
Lemma mx_dot_rect : exists A x y, mx_dot A x = Some y /\ exists i, (i < mx_m A)%nat /\ nth i y 0 <> rsum (mx_n A) (fun j => mx_at A i j * nth j x 0).
Proof.
  exists {| mx_m := 2; mx_n := 3; mx_d := fun k => INR k |}, [1; 0; 0]. eexists. split; [reflexivity|]. exists 1%nat. split; [cbn; lia|]. unfold mx_at, cindex. cbn. lra.
Qed.

(** *** Ownership *)
(** Objects that must free a block hold distinct allocated blocks, and nothing else is allocated. *)
Fixpoint owned (l : list (option holder)) : list pointer :=
  match l with [] => [] | Some h :: r => if hd_own h then hd_p h :: owned r else owned r | None :: r => owned r end.
Definition tidy (s : store) : Prop := NoDup (owned (so_obj s)) /\ NoDup (so_live s) /\ (forall p, In p (owned (so_obj s)) <-> exists n, p = Heap n /\ In n (so_live s)) /\ forall n, In n (so_live s) -> (n < so_next s)%nat.
Definition plain (a : action) : Prop := match a with Assign _ _ => False | Shallow _ => False | _ => True end.
(** the action names an object that exists *)
Definition names (s : store) (a : action) : Prop := match a with Copy i | Drop i => obj s i <> None | _ => True end.
Lemma owned_app l k : owned (l ++ k) = owned l ++ owned k.
Proof. induction l as [|[h|] l IH]; cbn; [reflexivity| |exact IH]. destruct (hd_own h); cbn; rewrite IH; reflexivity. Qed.
Lemma owned_drop l i h : nth i l None = Some h -> hd_own h = true -> exists a b, owned l = a ++ hd_p h :: b /\ owned (upd l i None) = a ++ b.
Proof.
  revert i. induction l as [|x l IH]; intros i E Ho; [destruct i; discriminate|]. destruct i as [|i].
  - cbn in E. subst x. cbn. rewrite Ho. exists [], (owned l). split; reflexivity.
  - cbn in E. destruct (IH i E Ho) as (a & b & A & B). cbn [owned upd]. destruct x as [h'|]; [destruct (hd_own h')|]; rewrite A, B; [exists (hd_p h' :: a), b|exists a, b|exists a, b]; split; reflexivity.
Qed.
Lemma owned_drop_not l i h : nth i l None = Some h -> hd_own h = false -> owned (upd l i None) = owned l.
Proof.
  revert i. induction l as [|x l IH]; intros i E Ho; [destruct i; discriminate|]. destruct i as [|i].
  - cbn in E. subst x. cbn. rewrite Ho. reflexivity.
  - cbn in E. cbn [owned upd]. rewrite (IH i E Ho). reflexivity.
Qed.
Lemma nodup_snoc {A} (l : list A) x : NoDup l -> ~ In x l -> NoDup (l ++ [x]).
Proof.
  induction l as [|y l IH]; intros H Hx; [constructor; [intros []|constructor]|]. inversion H as [|? ? H1 H2]; subst. cbn. constructor; [|apply IH; [exact H2|intros G; apply Hx; right; exact G]].
  intros G. apply in_app_or in G. destruct G as [G|[G|[]]]; [contradiction|]. apply Hx. left. symmetry. exact G.
Qed.
Lemma tidy_make s : tidy s -> tidy (let (s', h) := alloc s in push s' h).
Proof.
  intros (A & B & C & D). cbn. unfold tidy, push. cbn [so_live so_next so_obj]. rewrite owned_app. cbn [owned hd_own hd_p].
  assert (F : ~ In (so_next s) (so_live s)) by (intros G; apply D in G; lia).
  assert (F' : ~ In (Heap (so_next s)) (owned (so_obj s))) by (intros G; apply C in G; destruct G as (n & E & G); inversion E; subst; contradiction).
  repeat split.
  - apply nodup_snoc; assumption.
  - constructor; assumption.
  - intros G. apply in_app_or in G. destruct G as [G|[<-|[]]]; [|exists (so_next s); split; [reflexivity|left; reflexivity]]. apply C in G. destruct G as (n & E & G). exists n. split; [exact E|right; exact G].
  - intros (n & -> & [<-|G]); apply in_or_app; [right; left; reflexivity|left; apply C; exists n; split; [reflexivity|exact G]].
  - intros n [<-|G]; [lia|]. apply D in G. lia.
Qed.
Lemma tidy_act s a : tidy s -> plain a -> names s a -> exists s', act s a = Some s' /\ tidy s'.
Proof.
  intros Ht Hp Hn. destruct a as [|p|i|i|i j|i]; cbn [plain names] in *; try contradiction.
  - eexists. split; [reflexivity|]. apply (tidy_make s Ht).
  - eexists. split; [reflexivity|]. destruct Ht as (A & B & C & D). unfold tidy, push. cbn [so_live so_next so_obj]. rewrite owned_app. cbn [owned hd_own]. rewrite app_nil_r. split; [exact A|split; [exact B|split; [exact C|exact D]]].
  - cbn [act]. destruct (obj s i); [|contradiction]. eexists. split; [reflexivity|]. apply (tidy_make s Ht).
  - cbn [act]. destruct (obj s i) as [h|] eqn:Eo; [|contradiction]. destruct Ht as (A & B & C & D). destruct (hd_own h) eqn:Ho.
    + destruct (owned_drop _ _ _ Eo Ho) as (a & b & E1 & E2). assert (G : In (hd_p h) (owned (so_obj s))) by (rewrite E1; apply in_elt).
      apply C in G. destruct G as (n & En & Hin). rewrite En. assert (Ex : existsb (Nat.eqb n) (so_live s) = true) by (apply existsb_exists; exists n; split; [exact Hin|apply Nat.eqb_refl]). rewrite Ex.
      eexists. split; [reflexivity|]. unfold tidy. cbn [so_live so_next so_obj]. rewrite E2. rewrite E1, En in A, C.
      split; [apply (NoDup_remove_1 _ _ _ A)|]. split; [apply NoDup_filter; exact B|]. split.
      * intros p. split.
        -- intros G. assert (G' : In p (a ++ Heap n :: b)) by (apply in_app_or in G; apply in_or_app; destruct G; [left; assumption|right; right; assumption]). apply C in G'. destruct G' as (k & -> & Hk). exists k. split; [reflexivity|]. apply filter_In. split; [exact Hk|].
           destruct (Nat.eqb_spec k n) as [->|]; [|reflexivity]. exfalso. apply (NoDup_remove_2 _ _ _ A). exact G.
        -- intros (k & -> & G). apply filter_In in G. destruct G as [G1 G2]. assert (G' : In (Heap k) (a ++ Heap n :: b)) by (apply C; exists k; split; [reflexivity|exact G1]).
           apply in_app_or in G'. apply in_or_app. destruct G' as [G'|[G'|G']]; [left; exact G'| |right; exact G']. inversion G'. subst. rewrite Nat.eqb_refl in G2. discriminate.
      * intros k G. apply filter_In in G. apply D. apply G.
    + eexists. split; [reflexivity|]. unfold tidy. cbn [so_live so_next so_obj]. rewrite (owned_drop_not _ _ _ Eo Ho). split; [exact A|split; [exact B|split; [exact C|exact D]]].
Qed.
(** a use of the classes: every object named exists at that time *)
Fixpoint proper (s : store) (l : list action) : Prop := match l with [] => True | a :: r => plain a /\ names s a /\ forall s', act s a = Some s' -> proper s' r end.
Lemma tidy_empty : tidy empty_store.
Proof. unfold tidy, empty_store. cbn. repeat split; try constructor; try contradiction. intros (n & _ & []). Qed.
Lemma tidy_acts s l : tidy s -> proper s l -> exists s', acts s l = Some s' /\ tidy s'.
Proof.
  revert s. induction l as [|a l IH]; intros s Ht Hp; [exists s; split; [reflexivity|exact Ht]|]. destruct Hp as (P & N & R). destruct (tidy_act s a Ht P N) as (s' & E & Ht'). cbn [acts]. rewrite E. apply IH; [exact Ht'|apply R; exact E].
Qed.
(** no memory is freed twice, and once all objects are gone none is left allocated *)
Lemma memory_safe l : proper empty_store l -> exists s, acts empty_store l = Some s /\ ((forall i, obj s i = None) -> so_live s = []).
Proof.
  intros Hp. destruct (tidy_acts _ l tidy_empty Hp) as (s & E & (_ & _ & C & _)). exists s. split; [exact E|]. intros H.
  assert (O : owned (so_obj s) = []). { assert (G : forall x, In x (so_obj s) -> x = None) by (intros x Hx; destruct (In_nth _ _ None Hx) as (i & _ & <-); apply H). clear - G. induction (so_obj s) as [|x r IH]; [reflexivity|]. rewrite (G x (or_introl eq_refl)). cbn. apply IH. intros; apply G; right; assumption. }
  destruct (so_live s) as [|n r] eqn:El; [reflexivity|]. exfalso. assert (G : In (Heap n) (owned (so_obj s))) by (apply C; exists n; split; [reflexivity|left; reflexivity]). rewrite O in G. exact G.
Qed.
Lemma assigned_twice : exists l, acts empty_store (firstn 3 l) <> None /\ acts empty_store (firstn 4 l) <> None /\ acts empty_store l = None /\ l = [Make; Make; Assign 0 1; Drop 0; Drop 1]%nat.
Proof. eexists. split; [|split; [|split; [|reflexivity]]]; cbn; congruence. Qed.
Lemma copied_matrix_twice : acts empty_store [Make; Shallow 0; Drop 1]%nat <> None /\ acts empty_store [Make; Shallow 0; Drop 1; Drop 0]%nat = None.
Proof. split; cbn; congruence. Qed.
Lemma assigned_leak : exists s, acts empty_store [Make; Wrap 0; Assign 0 1; Drop 0; Drop 1]%nat = Some s /\ (forall i, obj s i = None) /\ so_live s <> [].
Proof. eexists. split; [reflexivity|]. split; [intros [|[|[|i]]]; reflexivity|cbn; congruence]. Qed.
