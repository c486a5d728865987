(** Numbering items that come in blocks: block k has ns k items, and the items
    of all blocks are numbered consecutively.  Used for slip systems (groups)
    and for history variables (one block per model). *)
From Verif Require Import Base.
From Verif Require Import Diff.
From Coq Require Import Lia Lra.

(** First number of block k, i.e. the number of items in the blocks before it. *)
Fixpoint boff (ns : nat -> nat) (k : nat) : nat :=
  match k with O => O | S j => (boff ns j + ns j)%nat end.
(** The block of item x and its place in it (searching m blocks from block k). *)
Fixpoint locate (ns : nat -> nat) (m k x : nat) : nat * nat :=
  match m with
  | O => (k, x)
  | S m' => if Nat.ltb x (ns k) then (k, x) else locate ns m' (S k) (x - ns k)
  end.
Definition bblk (ns : nat -> nat) (m x : nat) : nat := fst (locate ns m 0 x).
Definition bpos (ns : nat -> nat) (m x : nat) : nat := snd (locate ns m 0 x).
(** Block k of a vector. *)
Definition bsub (ns : nat -> nat) (h : vec) (k : nat) : vec := fun q => h (boff ns k + q)%nat.

Lemma locate_shift ns : forall m k x q j, (k <= j)%nat -> (j < k + m)%nat -> (q < ns j)%nat ->
  x = (boff ns j - boff ns k + q)%nat -> locate ns m k x = (j, q).
Proof.
  induction m as [|m IH]; intros k x q j Hk Hj Hq Hx; [lia|]. cbn [locate].
  assert (Hmono : forall a b, (a <= b)%nat -> (boff ns a <= boff ns b)%nat).
  { intros a b Hab. induction Hab; cbn; lia. }
  destruct (Nat.eq_dec k j) as [->|Hne].
  - replace x with q by lia. destruct (Nat.ltb_spec q (ns j)); [reflexivity|lia].
  - pose proof (Hmono (S k) j ltac:(lia)) as H1. cbn in H1.
    destruct (Nat.ltb_spec x (ns k)); [lia|].
    apply (IH (S k) _ q j); try lia. cbn. lia.
Qed.

Lemma locate_at ns m j q : (j < m)%nat -> (q < ns j)%nat -> locate ns m 0 (boff ns j + q) = (j, q).
Proof. intros Hj Hq. apply locate_shift; cbn; lia. Qed.

Lemma bblk_at ns m j q : (j < m)%nat -> (q < ns j)%nat -> bblk ns m (boff ns j + q) = j.
Proof. intros Hj Hq. unfold bblk. now rewrite (locate_at ns m j q Hj Hq). Qed.
Lemma bpos_at ns m j q : (j < m)%nat -> (q < ns j)%nat -> bpos ns m (boff ns j + q) = q.
Proof. intros Hj Hq. unfold bpos. now rewrite (locate_at ns m j q Hj Hq). Qed.

Lemma boff_le ns a b : (a <= b)%nat -> (boff ns a <= boff ns b)%nat.
Proof. intros H. induction H; cbn; lia. Qed.

Lemma boff_lt ns m j q : (j < m)%nat -> (q < ns j)%nat -> (boff ns j + q < boff ns m)%nat.
Proof. intros Hj Hq. pose proof (boff_le ns (S j) m ltac:(lia)) as H. cbn in H. lia. Qed.

(** Every number below the total belongs to exactly one block. *)
Lemma locate_total ns m : forall x, (x < boff ns m)%nat ->
  exists j q, (j < m)%nat /\ (q < ns j)%nat /\ x = (boff ns j + q)%nat.
Proof.
  induction m as [|m IH]; cbn; intros x Hx; [lia|].
  destruct (Nat.lt_ge_cases x (boff ns m)) as [H|H].
  - destruct (IH x H) as (j & q & A & B & C). exists j, q. repeat split; try lia.
  - exists m, (x - boff ns m)%nat. repeat split; lia.
Qed.

Lemma locate_back ns m x : (x < boff ns m)%nat ->
  (bblk ns m x < m)%nat /\ (bpos ns m x < ns (bblk ns m x))%nat /\ x = (boff ns (bblk ns m x) + bpos ns m x)%nat.
Proof.
  intros Hx. destruct (locate_total ns m x Hx) as (j & q & Hj & Hq & ->).
  rewrite (bblk_at ns m j q), (bpos_at ns m j q) by assumption. auto.
Qed.

Lemma rsum_blocks ns m f :
  rsum (boff ns m) f = rsum m (fun k => rsum (ns k) (fun q => f (boff ns k + q)%nat)).
Proof. induction m as [|m IH]; cbn; [reflexivity|]. now rewrite rsum_app, IH. Qed.
