From Verif Require Import Base.
From Verif Require Import Diff.
From Verif Require Import NemlMathModel NemlMathSpec InterpModel InterpSpec.
From Verif Require Import SurfModel SurfSpec SurfProofs HardModel HardSpec HardProofs RiModel RiSpec.

Lemma mv_mm n m (A B : mat) v i : mv m (mm n A B) v i = mv n A (mv m B v) i.
Proof.
  unfold mv, mm.
  transitivity (rsum m (fun j => rsum n (fun k => A i k * B k j * v j))).
  - apply rsum_ext. intros j Hj. symmetry. rewrite <- rsum_scal_r. reflexivity.
  - rewrite rsum_swap. apply rsum_ext. intros k Hk. rewrite <- rsum_scal. apply rsum_ext. intros j Hj. ring.
Qed.
Lemma dot_mtv n m (A : mat) d v : dot m (mtv n A d) v = dot n d (mv m A v).
Proof.
  unfold dot, mtv, mv.
  transitivity (rsum m (fun j => rsum n (fun k => A k j * d k * v j))).
  - apply rsum_ext. intros j Hj. symmetry. rewrite <- rsum_scal_r. reflexivity.
  - rewrite rsum_swap. apply rsum_ext. intros k Hk. rewrite <- rsum_scal. apply rsum_ext. intros j Hj. ring.
Qed.

Lemma chain_grad n k (P : vec -> vec -> Prop) (Q : vec -> Prop) f fs fq q dq :
  is_grad2 6 k P f fs fq -> is_jac k n Q q dq ->
  is_grad2 6 n (fun s a => P s (q a) /\ Q a) (fun s a => f s (q a)) (fun s a => fs s (q a)) (fun s a => mtv k (dq a) (fq s (q a))).
Proof.
  intros Hf Hq s a t vs va Hs Ha [HP HQ]. eapply D_eq. apply (Hf s (fun u => q (a u)) t vs _ Hs (Hq a t va Ha HQ) HP).
  rewrite dot_mtv. reflexivity.
Qed.
Lemma chain_jac l n k (P : vec -> vec -> Prop) (Q : vec -> Prop) f fs fq q dq :
  is_jac2 l 6 k P f fs fq -> is_jac k n Q q dq ->
  is_jac2 l 6 n (fun s a => P s (q a) /\ Q a) (fun s a => f s (q a)) (fun s a => fs s (q a)) (fun s a => mm k (fq s (q a)) (dq a)).
Proof.
  intros Hf Hq s a t vs va Hs Ha [HP HQ]. eapply path_ext. apply (Hf s (fun u => q (a u)) t vs _ Hs (Hq a t va Ha HQ) HP).
  intros i Hi. unfold vadd. rewrite mv_mm. reflexivity.
Qed.

Lemma assoc_exact Y H F P Q : make_associative Y H = Some F -> surface_exact P Y -> hard_exact Q H ->
  flow_exact (fun T s a => P T s (hr_q H a T) /\ Q T a) F.
Proof.
  unfold make_associative. destruct (Nat.eqb_spec (hr_n H) (ys_n Y)) as [E|]; [|discriminate].
  intros HF HY HH. injection HF as <-. intros T. destruct (HY T) as [H1 [H2 H3]]. specialize (HH T).
  rewrite <- E in *. split; [|split].
  - exact (chain_grad _ _ (P T) (Q T) _ _ _ _ _ H1 HH).
  - exact (chain_jac _ _ _ (P T) (Q T) _ _ _ _ _ H2 HH).
  - exact (chain_jac _ _ _ (P T) (Q T) _ _ _ _ _ H3 HH).
Qed.

Lemma nonassoc_exact Y H F P Q Ph : make_nonassociative Y H = Some F -> surface_exact P Y -> na_q_exact Q H -> na_h_exact Ph H ->
  flow_exact (fun T s a => P T s (na_q H a T) /\ Q T a /\ Ph T s a) F.
Proof.
  unfold make_nonassociative. destruct (Nat.eqb_spec (na_ninter H) (ys_n Y)) as [E|]; [|discriminate].
  intros HF HY HQ HH. injection HF as <-. intros T. destruct (HY T) as [H1 [H2 H3]]. specialize (HQ T). specialize (HH T).
  rewrite <- E in *. split; [|split].
  - intros s a t vs va Hs Ha [A [B C]].
    apply (chain_grad (na_n H) (na_ninter H) (P T) (Q T) _ _ _ _ _ H1 HQ); try assumption. split; assumption.
  - intros s a t vs va Hs Ha [A [B C]].
    apply (chain_jac 6 (na_n H) (na_ninter H) (P T) (Q T) _ _ _ _ _ H2 HQ); try assumption. split; assumption.
  - intros s a t vs va Hs Ha [A [B C]]. apply HH; assumption.
Qed.
