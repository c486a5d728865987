(** Combined inelastic models. *)
From Verif Require Import Base.
From Verif Require Import Diff.
From Verif Require Import NemlMathModel.
From Verif Require Import RotModel.
From Verif Require Import TensorModel.
From Verif Require Import Blocks.
From Verif Require Import SlipModel.
From Verif Require Import SlipSpec.
From Verif Require Import SlipProofs.
From Verif Require Import SlipWhole.
From Verif Require Import SlipFacts.
From Verif Require Import CpModel.
From Verif Require Import CpSpec.
From Verif Require Import CpProofs.
From Coq Require Import Lia Lra List Bool.
Import ListNotations.

(** A sum over blocks with one block picked. *)
Lemma rsum_pick_block (ns : nat -> nat) m k0 (f : nat -> R) : (k0 < m)%nat ->
  rsum (boff ns m) (fun x => if Nat.eqb (bblk ns m x) k0 then f (bpos ns m x) else 0) = rsum (ns k0) f.
Proof.
  intros Hk. rewrite rsum_blocks.
  rewrite (rsum_ext m _ (fun k => (if Nat.eqb k k0 then 1 else 0) * rsum (ns k) f)).
  - apply (rsum_pick m k0 (fun k => rsum (ns k) f)). exact Hk.
  - intros k Hkm. rewrite (rsum_ext (ns k) _ (fun q => (if Nat.eqb k k0 then 1 else 0) * f q)).
    + apply rsum_scal.
    + intros q Hq. rewrite bblk_at, bpos_at by assumption. destruct (Nat.eqb k k0); ring.
Qed.

Lemma cb_fulls_in m ms k : In k (cb_fulls m ms) <-> (k < m)%nat /\ i_full (ms k) = true.
Proof. unfold cb_fulls. rewrite filter_In, in_seq. split; intros [H1 H2]; split; try assumption; lia. Qed.

Lemma union_sum m ms (J : imodel -> vec -> vec -> mat) s h v i : one_history m ms ->
  rsum m (fun k => mv (i_n (ms k)) (J (ms k) s (bsub (cb_sizes ms) h k)) (bsub (cb_sizes ms) v k) i)
  = mv (boff (cb_sizes ms) m) (or_zero (cb_union m ms J s h)) v i.
Proof.
  intros [H1 H2]. unfold cb_union. destruct (cb_fulls m ms) as [|k0 [|k1 l]] eqn:E.
  - cbn [or_zero]. rewrite mv_zero by reflexivity. rewrite (rsum_ext m _ (fun _ => 0)); [apply rsum_0|].
    intros k Hk. assert (F : i_full (ms k) = false).
    { destruct (i_full (ms k)) eqn:F; [|reflexivity]. exfalso. assert (In k (cb_fulls m ms)) by (apply cb_fulls_in; auto). rewrite E in H. exact H. }
    rewrite (H2 k Hk F). reflexivity.
  - cbn [or_zero]. assert (Hk0 : (k0 < m)%nat /\ i_full (ms k0) = true) by (apply cb_fulls_in; rewrite E; left; reflexivity).
    destruct Hk0 as [Hk0 F0].
    rewrite (rsum_ext m _ (fun k => (if Nat.eqb k k0 then 1 else 0) * mv (i_n (ms k)) (J (ms k) s (bsub (cb_sizes ms) h k)) (bsub (cb_sizes ms) v k) i)).
    + rewrite (rsum_pick m k0) by exact Hk0. unfold mv at 2.
      rewrite (rsum_ext (boff (cb_sizes ms) m) _ (fun x => if Nat.eqb (bblk (cb_sizes ms) m x) k0 then
         J (ms k0) s (bsub (cb_sizes ms) h k0) i (bpos (cb_sizes ms) m x) * bsub (cb_sizes ms) v k0 (bpos (cb_sizes ms) m x) else 0)).
      * rewrite (rsum_pick_block (cb_sizes ms) m k0 (fun q => J (ms k0) s (bsub (cb_sizes ms) h k0) i q * bsub (cb_sizes ms) v k0 q) Hk0). reflexivity.
      * intros x Hx. unfold cb_col. destruct (Nat.eqb_spec (bblk (cb_sizes ms) m x) k0) as [Eb|Eb]; [|ring].
        destruct (locate_back (cb_sizes ms) m x Hx) as (_ & _ & Ex). f_equal. unfold bsub. f_equal. rewrite <- Eb. exact Ex.
    + intros k Hk. destruct (Nat.eqb_spec k k0) as [Ek|Ek]; [ring|]. 
      assert (F : i_full (ms k) = false).
      { destruct (i_full (ms k)) eqn:F; [|reflexivity]. exfalso. assert (X : In k (cb_fulls m ms)) by (apply cb_fulls_in; auto). rewrite E in X. destruct X as [X|[]]. congruence. }
      rewrite (H2 k Hk F). unfold mv. cbn. ring.
  - cbn in H1. lia.
Qed.

Lemma sum_jac2 m ms c (P : nat -> vec -> vec -> Prop) (F : imodel -> vec -> vec -> vec) (Js Jh : imodel -> vec -> vec -> mat) :
  one_history m ms ->
  (forall k, (k < m)%nat -> is_jac2 c 6 (i_n (ms k)) (P k) (F (ms k)) (Js (ms k)) (Jh (ms k))) ->
  is_jac2 c 6 (boff (cb_sizes ms) m) (fun s h => forall k, (k < m)%nat -> P k s (bsub (cb_sizes ms) h k))
    (fun s h i => rsum m (fun k => F (ms k) s (bsub (cb_sizes ms) h k) i))
    (fun s h i j => rsum m (fun k => Js (ms k) s (bsub (cb_sizes ms) h k) i j))
    (fun s h => or_zero (cb_union m ms Jh s h)).
Proof.
  intros H1 HJ s h t vs vh Hs Hh HP i Hi. unfold vadd. rewrite <- union_sum by exact H1.
  eapply D_eq.
  - apply (D_rsum m (fun u k => F (ms k) (s u) (bsub (cb_sizes ms) (h u) k) i) t
      (fun k => mv 6 (Js (ms k) (s t) (bsub (cb_sizes ms) (h t) k)) vs i + mv (i_n (ms k)) (Jh (ms k) (s t) (bsub (cb_sizes ms) (h t) k)) (bsub (cb_sizes ms) vh k) i)).
    intros k Hk. exact (HJ k Hk s (fun u => bsub (cb_sizes ms) (h u) k) t vs (bsub (cb_sizes ms) vh k) Hs (path_sub (cb_sizes ms) m h t vh k Hk Hh) (HP k Hk) i Hi).
  - rewrite rsum_plus. f_equal. unfold mv. rewrite rsum_swap. apply rsum_ext. intros j Hj. rewrite <- rsum_scal_r. reflexivity.
Qed.

Lemma combined_exact m ms (P : nat -> vec -> vec -> Prop) : one_history m ms ->
  (forall k, (k < m)%nat -> inelastic_exact (ms k) (P k)) ->
  inelastic_exact (combined m ms) (fun s h => forall k, (k < m)%nat -> P k s (bsub (cb_sizes ms) h k)).
Proof.
  intros H1 HE. split; [|split].
  - apply (sum_jac2 m ms 6 P i_dp i_dp_s i_dp_h H1). intros k Hk. apply (HE k Hk).
  - apply (sum_jac2 m ms 3 P i_wp i_wp_s i_wp_h H1). intros k Hk. apply (HE k Hk).
  - intros s h t vs vh Hs Hh HP x Hx. cbn [combined i_n] in Hx, Hh.
    destruct (locate_total (cb_sizes ms) m x Hx) as (k & q & Hk & Hq & ->).
    cbn [combined i_rate i_rate_s i_rate_h i_n]. unfold vadd, mv. 
    rewrite (bblk_at (cb_sizes ms) m k q Hk Hq), (bpos_at (cb_sizes ms) m k q Hk Hq).
    destruct (HE k Hk) as (_ & _ & HR).
    pose proof (HR s (fun u => bsub (cb_sizes ms) (h u) k) t vs (bsub (cb_sizes ms) vh k) Hs (path_sub (cb_sizes ms) m h t vh k Hk Hh) (HP k Hk) q Hq) as D.
    eapply D_eq; [exact D|]. unfold vadd, mv. f_equal.
    rewrite <- (rsum_pick_block (cb_sizes ms) m k) by exact Hk. apply rsum_ext. intros y Hy.
    destruct (Nat.eqb_spec (bblk (cb_sizes ms) m y) k) as [Eb|Eb]; [|ring].
    destruct (locate_back (cb_sizes ms) m y Hy) as (_ & _ & Ey). f_equal. unfold bsub. f_equal. rewrite <- Eb. symmetry; exact Ey.
Qed.
