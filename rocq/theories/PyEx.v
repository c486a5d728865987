(** An exact solver of linear systems exists. *)
From Verif Require Import Base Diff.
From Verif Require Import SolverModel SubstepModel CreepModel NlModel UniModel UniSpec.
From Coq Require Import ZArith List ClassicalDescription FunctionalExtensionality Arith Lia.

Definition nonsing (n : nat) (J : mat) : Prop := forall w, veq n (mv n J w) (fun _ => 0) -> veq n w (fun _ => 0).
Lemma mv_S n (J : mat) v i : mv (S n) J v i = mv n J v i + J i n * v n.
Proof. reflexivity. Qed.
Lemma mv_upto n (J : mat) v w i : veq n v w -> mv n J v i = mv n J w i.
Proof. intros H. unfold mv. apply rsum_ext. intros j Hj. rewrite (H j Hj). reflexivity. Qed.
Lemma mv_zero n (J : mat) i : mv n J (fun _ => 0) i = 0.
Proof. unfold mv. rewrite (rsum_ext n _ (fun _ => 0)) by (intros; ring). apply rsum_0. Qed.
(** Gauss, by the last column *)
Lemma nonsing_solves : forall n J r, nonsing n J -> exists v, veq n (mv n J v) r.
Proof.
  induction n as [|n IH]; intros J r H; [exists (fun _ => 0); intros i Hi; lia|].
  assert (HC : exists p, (p <= n)%nat /\ J p n <> 0).
  { destruct (classic (exists p, (p <= n)%nat /\ J p n <> 0)) as [|N]; [assumption|exfalso].
    assert (E : veq (S n) (fun j => if Nat.eqb j n then 1 else 0) (fun _ => 0)).
    { apply H. intros i Hi. rewrite mv_S, Nat.eqb_refl. rewrite (mv_upto n J _ (fun _ => 0)); [rewrite mv_zero|].
      - destruct (Req_EM_T (J i n) 0) as [Z|Z]; [rewrite Z; ring|]. exfalso. apply N. exists i. split; [lia|exact Z].
      - intros j Hj. destruct (Nat.eqb_spec j n); [lia|reflexivity]. }
    specialize (E n ltac:(lia)). cbv beta in E. rewrite Nat.eqb_refl in E. lra. }
  destruct HC as (p & Hp & HJ).
  set (sw := fun i => if Nat.eqb i p then n else i).
  set (J' := fun i j => J (sw i) j - J (sw i) n * (J p j / J p n)).
  assert (K : forall w i, mv n J' w i = mv n J w (sw i) - J (sw i) n * (mv n J w p / J p n)).
  { intros w i. unfold mv, J', Rdiv. rewrite (Rmult_comm (rsum n (fun j => J p j * w j))), <- !rsum_scal, <- rsum_minus. apply rsum_ext. intros. ring. }
  assert (SW : forall i, (i <= n)%nat -> i <> p -> exists q, (q < n)%nat /\ sw q = i).
  { intros i Hi N. destruct (Nat.eq_dec i n) as [->|N2].
    - exists p. split; [lia|]. unfold sw. rewrite Nat.eqb_refl. reflexivity.
    - exists i. split; [lia|]. unfold sw. destruct (Nat.eqb_spec i p); [contradiction|reflexivity]. }
  assert (SW2 : forall q, (q < n)%nat -> (sw q <= n)%nat) by (intros q Hq; unfold sw; destruct (Nat.eqb_spec q p); lia).
  set (ext := fun (w : vec) (z : R) (j : nat) => if Nat.eqb j n then z else w j).
  assert (EX : forall w z i, mv (S n) J (ext w z) i = mv n J w i + J i n * z).
  { intros w z i. rewrite mv_S. f_equal; [|unfold ext; rewrite Nat.eqb_refl; reflexivity]. apply mv_upto. intros j Hj. unfold ext. destruct (Nat.eqb_spec j n); [lia|reflexivity]. }
  assert (N' : nonsing n J').
  { intros w Hw. set (z := - (mv n J w p / J p n)).
    assert (Q : veq (S n) (ext w z) (fun _ => 0)).
    { apply H. intros i Hi. rewrite EX. destruct (Nat.eq_dec i p) as [->|Ni]; [unfold z; field; exact HJ|].
      destruct (SW i ltac:(lia) Ni) as (q & Hq & <-). specialize (Hw q Hq). rewrite K in Hw. unfold z. lra. }
    intros j Hj. specialize (Q j ltac:(lia)). unfold ext in Q. destruct (Nat.eqb_spec j n); [lia|exact Q]. }
  destruct (IH J' (fun i => r (sw i) - J (sw i) n * (r p / J p n)) N') as [v Hv].
  exists (ext v ((r p - mv n J v p) / J p n)). intros i Hi. rewrite EX.
  destruct (Nat.eq_dec i p) as [->|Ni]; [field; exact HJ|].
  destruct (SW i ltac:(lia) Ni) as (q & Hq & <-). specialize (Hv q Hq). rewrite K in Hv. cbv beta in Hv.
  replace (J (sw q) n * ((r p - mv n J v p) / J p n)) with (J (sw q) n * (r p / J p n) - J (sw q) n * (mv n J v p / J p n)) by (field; exact HJ). lra.
Qed.
Definition is_sol (n : nat) (J : mat) (r v : vec) : Prop := veq n (mv n J v) r /\ forall j, (n <= j)%nat -> v j = 0.
Lemma nonsing_unique n J r : nonsing n J -> exists! v, is_sol n J r v.
Proof.
  intros H. destruct (nonsing_solves n J r H) as [v Hv]. exists (fun j => if Nat.ltb j n then v j else 0).
  assert (U : forall w, veq n (mv n J w) r -> veq n w v).
  { intros w Hw j Hj. assert (Z : veq n (fun j => w j - v j) (fun _ => 0)).
    { apply H. intros i Hi. unfold mv. rewrite (rsum_ext n _ (fun j => J i j * w j - J i j * v j)) by (intros; ring). rewrite rsum_minus. fold (mv n J w i) (mv n J v i). rewrite (Hw i Hi), (Hv i Hi). ring. }
    specialize (Z j Hj). cbv beta in Z. lra. }
  split.
  - split; [|intros j Hj; destruct (Nat.ltb_spec j n); [lia|reflexivity]]. intros i Hi. rewrite <- (Hv i Hi). apply mv_upto. intros j Hj. destruct (Nat.ltb_spec j n); [reflexivity|lia].
  - intros w [W1 W2]. apply functional_extensionality. intros j. destruct (Nat.ltb_spec j n) as [L|L]; [symmetry; apply U; assumption|symmetry; apply W2, L].
Qed.
Definition the_solve (n : nat) (J : mat) (r : vec) : option vec :=
  match excluded_middle_informative (nonsing n J) with
  | left H => Some (proj1_sig (constructive_definite_description _ (nonsing_unique n J r H)))
  | right _ => None
  end.
Lemma the_solve_ok : solve_ok the_solve.
Proof.
  intros n J r v. unfold the_solve. destruct (excluded_middle_informative _) as [H|]; [|discriminate]. destruct (constructive_definite_description _ _) as [x [X1 X2]]. cbn [proj1_sig].
  intros E. injection E as <-. split; [exact X1|]. intros w Hw j Hj.
  assert (Z : veq n (fun j => w j - x j) (fun _ => 0)).
  { apply H. intros i Hi. unfold mv. rewrite (rsum_ext n _ (fun j => J i j * w j - J i j * x j)) by (intros; ring). rewrite rsum_minus. fold (mv n J w i) (mv n J x i). rewrite (Hw i Hi), (X1 i Hi). ring. }
  specialize (Z j Hj). cbv beta in Z. lra.
Qed.
Lemma the_solve_total : solve_total the_solve.
Proof. intros n J r H. unfold the_solve. destruct (excluded_middle_informative _) as [|N]; [eauto|contradiction]. Qed.
