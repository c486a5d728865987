From Verif Require Import Base.
From Verif Require Import Diff SolverModel SolverSpec.

Lemma flt_spec a b : flt a b = true <-> decreases a b.
Proof.
  unfold flt, decreases. split.
  - destruct a as [x|], b as [y|]; try discriminate. destruct (Rlt_dec x y); [|discriminate]. eauto.
  - intros (x & y & -> & -> & H). destruct (Rlt_dec x y); tauto.
Qed.

Lemma conv_spec p a b : conv_test p a b = true <-> converged p a b.
Proof.
  unfold conv_test, converged. rewrite orb_true_iff, !flt_spec. unfold decreases, fdiv. split.
  - intros [(x & y & -> & E & H)|(x & y & E1 & E2 & H)].
    + injection E as <-. exists x. auto.
    + injection E2 as <-. destruct a as [r|], b as [r0|]; try discriminate.
      destruct (Req_EM_T r0 0) as [|Hn]; [discriminate|]. injection E1 as <-.
      exists r. split; [reflexivity|]. right. eauto.
  - intros (r & -> & [H|(r0 & -> & Hn & H)]).
    + left. eauto.
    + right. destruct (Req_EM_T r0 0); [contradiction|]. eauto.
Qed.

Lemma conv_false p a b : conv_test p a b = false <-> ~ converged p a b.
Proof. rewrite <- conv_spec. destruct (conv_test p a b); split; congruence || tauto. Qed.

Lemma flt_false a b : flt a b = false <-> ~ decreases a b.
Proof. rewrite <- flt_spec. destruct (flt a b); split; congruence || tauto. Qed.

(** line search, from step length 2^-j0 with [left] halvings remaining *)
Lemma line_search_spec {X D V} (s : nsys X D V) x0 dir nR : forall left j0 calls x d c,
  line_search s left ((/ 2) ^ j0) x0 dir nR calls = Ok (x, d, c) <->
  exists j, (j0 <= j <= j0 + left)%nat /\ x = sys_move s x0 ((/ 2) ^ j) dir /\ sys_RJ s x = Some d /\
    (forall k, (j0 <= k < j)%nat -> exists dk, sys_RJ s (sys_move s x0 ((/ 2) ^ k) dir) = Some dk /\
       ~ decreases (sys_norm s dk) nR) /\
    (decreases (sys_norm s d) nR \/ j = (j0 + left)%nat) /\ c = (calls + S (j - j0))%nat.
Proof.
  induction left as [|left IH]; intros j0 calls x d c; cbn [line_search].
  - split.
    + destruct (sys_RJ s (sys_move s x0 ((/ 2) ^ j0) dir)) as [d'|] eqn:E; [|discriminate].
      intros H. assert (H' : Ok (sys_move s x0 ((/ 2) ^ j0) dir, d', S calls) = Ok (x, d, c)).
      { destruct (flt (sys_norm s d') nR); exact H. }
      injection H' as <- <- <-. exists j0. split; [lia|]. split; [reflexivity|]. split; [exact E|].
      split; [intros; lia|]. split; [right; lia|lia].
    + intros (j & Hj & -> & Hd & _ & _ & ->). assert (j = j0) by lia. subst j. rewrite Hd.
      replace (calls + S (j0 - j0))%nat with (S calls) by lia.
      destruct (flt (sys_norm s d) nR); reflexivity.
  - replace ((/ 2) ^ j0 / 2) with ((/ 2) ^ S j0) by (simpl; field). split.
    + destruct (sys_RJ s (sys_move s x0 ((/ 2) ^ j0) dir)) as [d'|] eqn:E; [|discriminate].
      destruct (flt (sys_norm s d') nR) eqn:Ef.
      * intros H. injection H as <- <- <-. exists j0. split; [lia|]. split; [reflexivity|].
        split; [exact E|]. split; [intros; lia|]. split; [left; now apply flt_spec|lia].
      * intros H. apply IH in H. destruct H as (j & Hj & -> & Hd & Hk & Hl & ->).
        exists j. split; [lia|]. split; [reflexivity|]. split; [exact Hd|]. split.
        -- intros k Hkj. destruct (Nat.eq_dec k j0) as [->|Hne].
           ++ exists d'. split; [exact E|]. now apply flt_false.
           ++ apply Hk. lia.
        -- split; [|lia]. destruct Hl as [Hl|Hl]; [now left|right; lia].
    + intros (j & Hj & -> & Hd & Hk & Hl & ->).
      destruct (Nat.eq_dec j j0) as [->|Hne].
      * rewrite Hd. destruct Hl as [Hl|Hl]; [|lia]. apply flt_spec in Hl. rewrite Hl.
        f_equal. f_equal. lia.
      * destruct (Hk j0 ltac:(lia)) as (dk & Ek & Hnd). rewrite Ek.
        apply flt_false in Hnd. rewrite Hnd. apply IH.
        exists j. split; [lia|]. split; [reflexivity|]. split; [exact Hd|].
        split; [intros k Hkk; apply Hk; lia|]. split; [|lia].
        destruct Hl as [Hl|Hl]; [now left|right; lia].
Qed.

Lemma newton_step_spec {X D V} (s : nsys X D V) p x d x' d' calls :
  (exists c, newton_step s p x d calls = Ok (x', d', c)) <-> iterates s p x d x' d'.
Proof.
  unfold newton_step, iterates. split.
  - intros (c & H). destruct (sys_solve s d) as [dir|]; [|discriminate].
    exists dir. split; [reflexivity|]. destruct (linesearch p).
    + change 1 with ((/ 2) ^ 0) in H. apply line_search_spec in H.
      destruct H as (j & Hj & -> & Hd & Hk & Hl & _). exists j.
      split; [lia|]. split; [reflexivity|]. split; [exact Hd|].
      split; [intros k Hkk; apply Hk; lia|]. destruct Hl as [Hl|Hl]; [now left|right; lia].
    + destruct (sys_RJ s (sys_move s x 1 dir)) as [d1|] eqn:E; [|discriminate].
      injection H as <- <- <-. auto.
  - intros (dir & -> & H). destruct (linesearch p).
    + destruct H as (j & Hj & -> & Hd & Hk & Hl). eexists.
      change 1 with ((/ 2) ^ 0). apply line_search_spec. exists j.
      split; [lia|]. split; [reflexivity|]. split; [exact Hd|].
      split; [intros k Hkk; apply Hk; lia|]. split; [|reflexivity].
      destruct Hl as [Hl|Hl]; [now left|right; lia].
    + destruct H as (-> & E). rewrite E. eauto.
Qed.

Lemma newton_step_calls {X D V} (s : nsys X D V) p x d x' d' calls c :
  newton_step s p x d calls = Ok (x', d', c) ->
  (c <= calls + if linesearch p then 10 else 1)%nat.
Proof.
  unfold newton_step. destruct (sys_solve s d) as [dir|]; [|discriminate].
  destruct (linesearch p).
  - change 1 with ((/ 2) ^ 0). rewrite line_search_spec.
    intros (j & Hj & _ & _ & _ & _ & ->). lia.
  - destruct (sys_RJ s (sys_move s x 1 dir)); [|discriminate]. intros H. injection H as <- <- <-. lia.
Qed.

Lemma newton_step_no_fuel {X D V} (s : nsys X D V) p x d calls :
  newton_step s p x d calls <> Throw OutOfFuel.
Proof.
  unfold newton_step. destruct (sys_solve s d) as [dir|]; [|discriminate].
  destruct (linesearch p); [|destruct (sys_RJ s (sys_move s x 1 dir)); discriminate].
  generalize 1. generalize calls. generalize 9%nat.
  induction n as [|n IH]; intros c a; cbn [line_search];
    destruct (sys_RJ s (sys_move s x a dir)); try discriminate;
    destruct (flt (sys_norm s d0) (sys_norm s d)); try discriminate. apply IH.
Qed.

(** soundness of the loop *)
Lemma newton_loop_sound {X D V} (s : nsys X D V) p d0 : forall fuel (k : nat) x d calls x' d' c,
  (1 <= miter p)%Z -> (Z.of_nat k < miter p)%Z ->
  reached s p d0 k x d ->
  newton_loop fuel s p (sys_norm s d0) (Z.of_nat k) x d calls = Ok (x', d', c) ->
  exists k', (k <= k')%nat /\ (Z.of_nat k' < miter p)%Z /\ reached s p d0 k' x' d' /\
    converged p (sys_norm s d') (sys_norm s d0).
Proof.
  induction fuel as [|fuel IH]; intros k x d calls x' d' c Hm Hk Hr H; [discriminate|].
  cbn [newton_loop] in H.
  destruct (conv_test p (sys_norm s d) (sys_norm s d0)) eqn:Ec.
  - destruct (Z.eqb_spec (Z.of_nat k) (miter p)); [discriminate|]. injection H as <- <- <-.
    exists k. split; [lia|]. split; [exact Hk|]. split; [exact Hr|]. now apply conv_spec.
  - destruct (newton_step s p x d calls) as [[[x1 d1] c1]|] eqn:Es; [|discriminate].
    destruct (Z.leb_spec (miter p) (Z.of_nat k + 1)) as [Hle|Hgt].
    + destruct (Z.eqb_spec (Z.of_nat k + 1) (miter p)); [discriminate|]. lia.
    + replace (Z.of_nat k + 1)%Z with (Z.of_nat (S k)) in H by lia.
      assert (Hr1 : reached s p d0 (S k) x1 d1).
      { eapply reached_S; [exact Hr|now apply conv_false|]. apply newton_step_spec with (calls := calls). eauto. }
      destruct (IH (S k) x1 d1 c1 x' d' c Hm ltac:(lia) Hr1 H) as (k' & H1 & H2 & H3 & H4).
      exists k'. split; [lia|]. auto.
Qed.

Lemma newton_return {X D V} (s : nsys X D V) p x d c : (1 <= miter p)%Z ->
  newton s p = Ok (x, d, c) ->
  exists k d0, (Z.of_nat k < miter p)%Z /\ reached s p d0 k x d /\
    converged p (sys_norm s d) (sys_norm s d0).
Proof.
  unfold newton. intros Hm H. destruct (sys_RJ s (sys_init s)) as [d0|] eqn:E; [|discriminate].
  destruct (newton_loop_sound s p d0 _ 0 _ _ _ _ _ _ Hm ltac:(lia) (reached_0 s p d0 E) H)
    as (k' & _ & H2 & H3 & H4). eauto.
Qed.

(** determinism of the reached relation *)
Lemma iterates_det {X D V} (s : nsys X D V) p x d x1 d1 x2 d2 :
  iterates s p x d x1 d1 -> iterates s p x d x2 d2 -> x1 = x2 /\ d1 = d2.
Proof.
  rewrite <- !(newton_step_spec s p x d _ _ 0). intros (c1 & H1) (c2 & H2).
  rewrite H1 in H2. injection H2 as -> -> _. auto.
Qed.

Lemma reached_0_inv {X D V} (s : nsys X D V) p d0 x d : reached s p d0 0 x d ->
  x = sys_init s /\ d = d0.
Proof. intros H. inversion H. auto. Qed.

Lemma reached_S_inv {X D V} (s : nsys X D V) p d0 k x' d' : reached s p d0 (S k) x' d' ->
  exists x d, reached s p d0 k x d /\ ~ converged p (sys_norm s d) (sys_norm s d0) /\
    iterates s p x d x' d'.
Proof. intros H. inversion H; subst. eauto. Qed.

Lemma reached_det {X D V} (s : nsys X D V) p d0 : forall k x d x' d',
  reached s p d0 k x d -> reached s p d0 k x' d' -> x = x' /\ d = d'.
Proof.
  induction k as [|k IH]; intros x d x' d' H H'.
  - apply reached_0_inv in H, H'. intuition congruence.
  - apply reached_S_inv in H, H'. destruct H as (x1 & d1 & H1 & _ & I1).
    destruct H' as (x2 & d2 & H2 & _ & I2).
    destruct (IH _ _ _ _ H1 H2) as [-> ->]. eapply iterates_det; eauto.
Qed.

Lemma reached_RJ {X D V} (s : nsys X D V) p d0 k x d : reached s p d0 k x d -> sys_RJ s x = Some d.
Proof.
  intros H. destruct H as [H|k x d x' d' _ _ (dir & _ & HH)]; [exact H|].
  destruct (linesearch p).
  - destruct HH as (j & _ & _ & E & _). exact E.
  - destruct HH as (_ & E). exact E.
Qed.

Lemma reached_prefix {X D V} (s : nsys X D V) p d0 : forall k' k x d, reached s p d0 (k + k') x d ->
  exists x1 d1, reached s p d0 k x1 d1 /\ (k' <> 0%nat -> ~ converged p (sys_norm s d1) (sys_norm s d0)).
Proof.
  induction k' as [|k' IH]; intros k x d H.
  - rewrite Nat.add_0_r in H. exists x, d. split; [exact H|congruence].
  - replace (k + S k')%nat with (S (k + k')) in H by lia.
    apply reached_S_inv in H. destruct H as (x1 & d1 & H1 & Hn & _).
    destruct k' as [|k'].
    + rewrite Nat.add_0_r in *. eauto.
    + destruct (IH k _ _ H1) as (x2 & d2 & Hr & Hn2). exists x2, d2. split; [exact Hr|]. intros _. apply Hn2. congruence.
Qed.

(** completeness: converging before the limit makes the solver return *)
Lemma newton_loop_complete {X D V} (s : nsys X D V) p d0 : forall m (k : nat) x d calls fuel x' d',
  (m < fuel)%nat -> (Z.of_nat (k + m) < miter p)%Z ->
  reached s p d0 k x d -> reached s p d0 (k + m) x' d' ->
  converged p (sys_norm s d') (sys_norm s d0) ->
  exists c, newton_loop fuel s p (sys_norm s d0) (Z.of_nat k) x d calls = Ok (x', d', c).
Proof.
  induction m as [|m IH]; intros k x d calls fuel x' d' Hf Hk Hr Hr' Hc;
    (destruct fuel as [|fuel]; [lia|]); cbn [newton_loop].
  - rewrite Nat.add_0_r in Hr'. destruct (reached_det _ _ _ _ _ _ _ _ Hr Hr') as [-> ->].
    apply conv_spec in Hc. rewrite Hc. destruct (Z.eqb_spec (Z.of_nat k) (miter p)); [lia|]. eauto.
  - destruct (reached_prefix s p d0 (S m) k x' d' Hr') as (x1 & d1 & H1 & H2).
    destruct (reached_det _ _ _ _ _ _ _ _ Hr H1) as [-> ->].
    rewrite (proj2 (conv_false _ _ _) (H2 ltac:(congruence))).
    replace (k + S m)%nat with (S k + m)%nat in Hr' by lia.
    destruct (reached_prefix s p d0 m (S k) x' d' Hr') as (x2 & d2 & H3 & _).
    assert (H3' := H3). apply reached_S_inv in H3'. destruct H3' as (x3 & d3 & H4 & _ & H6).
    destruct (reached_det _ _ _ _ _ _ _ _ H1 H4) as [-> ->].
    destruct (proj2 (newton_step_spec s p _ _ _ _ calls) H6) as (c1 & Es). rewrite Es.
    destruct (Z.leb_spec (miter p) (Z.of_nat k + 1)) as [Hle|Hgt]; [lia|].
    replace (Z.of_nat k + 1)%Z with (Z.of_nat (S k)) by lia.
    apply IH; auto; lia.
Qed.

Lemma newton_iff {X D V} (s : nsys X D V) p x d : (1 <= miter p)%Z ->
  ((exists c, newton s p = Ok (x, d, c)) <->
   exists k d0, (Z.of_nat k < miter p)%Z /\ reached s p d0 k x d /\
     converged p (sys_norm s d) (sys_norm s d0)).
Proof.
  intros Hm. split.
  - intros (c & H). eapply newton_return; eauto.
  - intros (k & d0 & Hk & Hr & Hc). unfold newton.
    assert (E : sys_RJ s (sys_init s) = Some d0).
    { clear - Hr. induction Hr; auto. }
    rewrite E. eapply (newton_loop_complete s p d0 k 0); auto; try lia.
    now constructor.
Qed.

(** bounded work *)
Lemma newton_loop_work {X D V} (s : nsys X D V) p nR0 : forall fuel i x d calls x' d' c,
  newton_loop fuel s p nR0 i x d calls = Ok (x', d', c) ->
  (c <= calls + fuel * if linesearch p then 10 else 1)%nat.
Proof.
  induction fuel as [|fuel IH]; intros i x d calls x' d' c H; [discriminate|].
  cbn [newton_loop] in H. destruct (conv_test p (sys_norm s d) nR0).
  - destruct (Z.eqb i (miter p)); [discriminate|]. injection H as <- <- <-. lia.
  - destruct (newton_step s p x d calls) as [[[x1 d1] c1]|] eqn:Es; [|discriminate].
    assert (Hc := newton_step_calls _ _ _ _ _ _ _ _ Es).
    destruct (Z.leb (miter p) (i + 1)).
    + destruct (Z.eqb (i + 1) (miter p)); [discriminate|]. injection H as <- <- <-.
      destruct (linesearch p); lia.
    + apply IH in H. destruct (linesearch p); lia.
Qed.

Lemma newton_loop_fuel {X D V} (s : nsys X D V) p nR0 : forall fuel i x d calls,
  (0 <= i)%Z -> (Z.to_nat (miter p - i) < fuel)%nat ->
  newton_loop fuel s p nR0 i x d calls <> Throw OutOfFuel.
Proof.
  induction fuel as [|fuel IH]; intros i x d calls Hi Hf; [lia|].
  cbn [newton_loop]. destruct (conv_test p (sys_norm s d) nR0).
  - destruct (Z.eqb i (miter p)); discriminate.
  - destruct (newton_step s p x d calls) as [[[x1 d1] c1]|e] eqn:Es.
    + destruct (Z.leb_spec (miter p) (i + 1)).
      * destruct (Z.eqb (i + 1) (miter p)); discriminate.
      * apply IH; lia.
    + intros E. injection E as ->. exact (newton_step_no_fuel s p x d calls Es).
Qed.

Lemma newton_total {X D V} (s : nsys X D V) p : newton s p <> Throw OutOfFuel.
Proof.
  unfold newton. destruct (sys_RJ s (sys_init s)); [|discriminate].
  apply newton_loop_fuel; lia.
Qed.

(** tight count for a returned solution *)
Lemma newton_loop_work2 {X D V} (s : nsys X D V) p nR0 : forall fuel i x d calls x' d' c,
  (1 <= miter p)%Z -> (0 <= i < miter p)%Z ->
  newton_loop fuel s p nR0 i x d calls = Ok (x', d', c) ->
  (Z.of_nat c <= Z.of_nat calls + (miter p - 1 - i) * if linesearch p then 10 else 1)%Z.
Proof.
  induction fuel as [|fuel IH]; intros i x d calls x' d' c Hm Hi H; [discriminate|].
  cbn [newton_loop] in H. destruct (conv_test p (sys_norm s d) nR0).
  - destruct (Z.eqb i (miter p)); [discriminate|]. injection H as <- <- <-. destruct (linesearch p); lia.
  - destruct (newton_step s p x d calls) as [[[x1 d1] c1]|] eqn:Es; [|discriminate].
    assert (Hc := newton_step_calls _ _ _ _ _ _ _ _ Es).
    destruct (Z.leb_spec (miter p) (i + 1)).
    + destruct (Z.eqb_spec (i + 1) (miter p)); [discriminate|]. lia.
    + apply IH in H; [|lia|lia]. destruct (linesearch p); lia.
Qed.

Lemma newton_work {X D V} (s : nsys X D V) p x d c : (1 <= miter p)%Z ->
  newton s p = Ok (x, d, c) ->
  (Z.of_nat c <= 1 + (miter p - 1) * if linesearch p then 10 else 1)%Z.
Proof.
  unfold newton. intros Hm H. destruct (sys_RJ s (sys_init s)); [|discriminate].
  apply newton_loop_work2 in H; try lia.
Qed.

(** *** numerical Jacobian *)
Lemma diff_step_pos eps x i : 0 < eps -> eps <= diff_step eps x i.
Proof.
  intros H. unfold diff_step. cbv zeta. destruct (Rlt_dec (eps * Rabs (x i)) eps); lra.
Qed.

Lemma diff_step_bound eps x i : 0 < eps -> diff_step eps x i <= eps * (1 + Rabs (x i)).
Proof.
  intros H. unfold diff_step. cbv zeta. assert (0 <= Rabs (x i)) by apply Rabs_pos.
  assert (0 <= eps * Rabs (x i)) by (apply Rmult_le_pos; lra).
  destruct (Rlt_dec (eps * Rabs (x i)) eps); lra.
Qed.

Lemma diff_jac_affine n (A : mat) (b : vec) eps x i j : 0 < eps -> (i < n)%nat ->
  diff_jac (fun x j => rsum n (fun k => A j k * x k) + b j) eps x j i = A j i.
Proof.
  intros He Hi. unfold diff_jac. cbv zeta. set (dx := diff_step eps x i).
  assert (Hdx : 0 < dx) by (generalize (diff_step_pos eps x i He); unfold dx; lra).
  replace (rsum n (fun k => A j k * bump x i dx k) + b j - (rsum n (fun k => A j k * x k) + b j))
    with (dx * A j i); [field; lra|].
  transitivity (rsum n (fun k => A j k * bump x i dx k - A j k * x k)); [|rewrite rsum_minus; ring].
  transitivity (rsum n (fun k => delta i k * (dx * A j k))).
  - rewrite (rsum_delta n i (fun k => dx * A j k)) by exact Hi. reflexivity.
  - apply rsum_ext. intros k _. unfold bump, delta. rewrite (Nat.eqb_sym k i).
    destruct (Nat.eqb_spec i k) as [->|]; ring.
Qed.

Lemma diff_jac_check_affine n (A : mat) (b : vec) eps x : 0 < eps ->
  diff_jac_check n (fun x j => rsum n (fun k => A j k * x k) + b j) eps x A = 0.
Proof.
  intros He. unfold diff_jac_check.
  rewrite (rsum_ext n _ (fun _ => 0)), rsum_0; [unfold Rdiv; ring|].
  intros j Hj. rewrite (rsum_ext n _ (fun _ => 0)), rsum_0; [reflexivity|].
  intros i Hi. rewrite diff_jac_affine by assumption. ring.
Qed.

Lemma bump_line x i dx : forall k, bump x i dx k = x k + dx * delta i k.
Proof.
  intros k. unfold bump, delta. rewrite (Nat.eqb_sym k i). destruct (Nat.eqb i k); ring.
Qed.

(** the difference quotient converges to the Jacobian entry *)
Lemma diff_jac_limit m n (P : vec -> Prop) F J x i j : is_jac m n P F J -> P x ->
  (j < m)%nat -> (i < n)%nat ->
  forall err, 0 < err -> exists del, 0 < del /\
    forall eps, 0 < eps < del -> Rabs (diff_jac F eps x j i - J x j i) < err.
Proof.
  intros HJ HP Hj Hi err Herr.
  assert (E0 : (fun k => x k + 0 * delta i k) = x).
  { apply FunctionalExtensionality.functional_extensionality. intros; ring. }
  assert (HD := HJ _ 0 _ (path_line n x (delta i))). cbv beta in HD. rewrite E0 in HD.
  specialize (HD HP j Hj). unfold mv in HD. 
  assert (Ed : rsum n (fun k => J x j k * delta i k) = J x j i).
  { rewrite <- (rsum_delta n i (J x j) Hi). apply rsum_ext. intros; ring. }
  rewrite Ed in HD. apply is_derive_Reals in HD.
  destruct (HD err Herr) as (del & Hdel).
  assert (Hq : 0 < 1 + Rabs (x i)) by (generalize (Rabs_pos (x i)); lra).
  exists (del / (1 + Rabs (x i))). split.
  { apply Rdiv_lt_0_compat; [apply cond_pos|exact Hq]. }
  intros eps [He1 He2]. unfold diff_jac. cbv zeta.
  assert (H1 := diff_step_pos eps x i He1). assert (H2 := diff_step_bound eps x i He1).
  set (dx := diff_step eps x i) in *.
  assert (Hlt : eps * (1 + Rabs (x i)) < del).
  { apply (Rmult_lt_compat_r (1 + Rabs (x i))) in He2; [|exact Hq].
    replace (del / (1 + Rabs (x i)) * (1 + Rabs (x i))) with (pos del) in He2 by (field; lra). exact He2. }
  specialize (Hdel dx ltac:(lra)).
  replace (bump x i dx) with (fun k => x k + (0 + dx) * delta i k).
  - rewrite E0 in Hdel. apply Hdel. rewrite Rabs_pos_eq; lra.
  - apply FunctionalExtensionality.functional_extensionality. intros k. rewrite bump_line. ring.
Qed.
