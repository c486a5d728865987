(** C104: histories keep their numbers and their memory. *)
From Coq Require Import Arith Bool List Lra Lia.
From Verif Require Import Base.
From Verif Require Import StoModel.
From Verif Require Import HstModel.
From Verif Require Import HstSpec.
From Verif Require Import HstProofs.
Import ListNotations.

(** Every program of constructions, additions of variables, copies, assignments, arithmetic,
    set_data, copy_data, make_store, increase_store and destructions, of any length, whatever
    new [] leaves in fresh memory, does what containers and windows would do: same objects,
    same numbers, same arrays of the caller; it throws exactly when sizes differ; it never
    touches memory that is not there and loses none. *)
Theorem C104_containers : forall (junk : nat -> nat -> R) (nb : nat) (len : nat -> nat) (arr : nat -> nat -> R) (l : list hop),
  wspares nb len (wstart arr) l ->
  match wruns nb len (wstart arr) l with
  | WOk a => exists s, hruns junk nb (hstart nb len arr) l = HOk s /\ same_histories nb s a /\ nothing_lost s
  | WThrow => hruns junk nb (hstart nb len arr) l = HThrow
  | WIll => True
  end.
Proof. exact @hst_values. Qed.
Print Assumptions C104_containers.

(** When all histories have been destroyed no memory of theirs is left. *)
Theorem C104_all_freed : forall (junk : nat -> nat -> R) (nb : nat) (len : nat -> nat) (arr : nat -> nat -> R) (l : list hop) (a : wstate),
  wspares nb len (wstart arr) l -> wruns nb len (wstart arr) l = WOk a -> (forall x, w_env a x = None) ->
  exists s, hruns junk nb (hstart nb len arr) l = HOk s /\ forall b, s_live s b = false.
Proof. exact @hst_all_deleted. Qed.
Print Assumptions C104_all_freed.

(** A case: a history grows twice and keeps its numbers, is copied, laid over an array with
    set_data and written to, everything destroyed. *)
Definition C104_prog : list hop :=
  [HNew 0; HGrow 0 1; HPut 0 0 7; HReserve 0 5; HGrow 0 1; HPut 0 1 8; HCopy 1 0; HSet 0 0 2;
   HAssign 0 1; HDeep 2 0; HScale 2 2; HPlus 0 2; HCopy 3 0; HMake 3; HZero 3; HDel 0; HDel 1; HDel 2; HDel 3].
Example C104_containers_case : forall arr, wspares 1 (fun _ => 6%nat) (wstart arr) C104_prog /\
  exists a, wruns 1 (fun _ => 6%nat) (wstart arr) C104_prog = WOk a /\ (forall x, w_env a x = None) /\
    w_arr a 0%nat 2%nat = Some (7 + 7 * 2) /\ w_arr a 0%nat 3%nat = Some (8 + 8 * 2) /\ w_arr a 0%nat 4%nat = Some (arr 0%nat 4%nat).
Proof.
  intros arr. split.
  - cbn. repeat split; auto. intros (b & i & j & n & m & E1 & E2 & L). cbn in E2. discriminate.
  - eexists. split; [reflexivity|]. split; [|repeat split; reflexivity].
    intros x. cbn. do 4 (destruct x as [|x]; [reflexivity|]). reflexivity.
Qed.
Example C104_throw_case : forall junk arr, wspares 1 (fun _ => 6%nat) (wstart arr) [HNew 0; HView 1 0 0; HGrow 1 3; HAssign 0 1] /\
  hruns junk 1 (hstart 1 (fun _ => 6%nat) arr) [HNew 0; HView 1 0 0; HGrow 1 3; HAssign 0 1] = HThrow.
Proof. intros junk arr. cbn. repeat split; auto. Qed.

(** Refuted: make_store ("convert to store") does not keep the numbers; the history shows
    whatever the new memory contains. *)
Theorem C104_make_store_refuted : forall (nb : nat) (len : nat -> nat) (arr : nat -> nat -> R) (b off n : nat),
  (b < nb)%nat -> (0 < n)%nat ->
  exists junk s t, hruns junk nb (hstart nb len arr) [HView 0 b off; HGrow 0 n; HMake 0] = HOk s /\
    s_env s 0%nat = Some t /\ h_n t = n /\ h_own t = true /\ forall i, (i < n)%nat -> hrd s t i <> arr b (off + i)%nat.
Proof.
  intros nb len arr b off n Hb Hn. apply Nat.ltb_lt in Hb. exists (fun _ j => arr b (off + j)%nat + 1).
  eexists. eexists. split; [cbn -[Nat.ltb]; rewrite Hb; cbn -[Nat.ltb]; reflexivity|].
  split; [reflexivity|]. split; [reflexivity|]. split; [reflexivity|].
  intros i _. unfold hrd. cbn -[Nat.ltb]. rewrite Nat.eqb_refl. replace (Nat.ltb i 0) with false by (symmetry; apply Nat.ltb_ge; lia). lra.
Qed.
Print Assumptions C104_make_store_refuted.

(** Refuted: increase_store is public and checks nothing: on a history laid over an array it
    deletes the array, and with less room than there are numbers it writes past the end. *)
Theorem C104_increase_store_refuted : forall (junk : nat -> nat -> R) (nb : nat) (len : nat -> nat) (arr : nat -> nat -> R) (b off n c : nat),
  (b < nb)%nat -> (off + n <= len b)%nat ->
  hruns junk nb (hstart nb len arr) [HView 0 b off; HGrow 0 n; HReserve 0 c] = HFault /\
  ((c < n)%nat -> hruns junk nb (hstart nb len arr) [HNew 0; HGrow 0 n; HReserve 0 c] = HFault).
Proof.
  intros junk nb len arr b off n c Hb Hl. apply Nat.ltb_lt in Hb. split.
  - cbn -[Nat.ltb]. rewrite Hb. cbn -[Nat.ltb]. unfold regrow. cbn [h_own]. now rewrite andb_false_r.
  - intros Hc. assert (Hn : Nat.ltb 0 n = true) by (apply Nat.ltb_lt; lia).
    assert (L : Nat.leb n c = false) by (apply Nat.leb_gt; exact Hc).
    pose proof (hst_values junk nb len arr [HNew 0; HGrow 0 n]) as A. cbn [wruns wstep wfree wstart w_env wspares wspared] in A.
    assert (S : wspares nb len (wstart arr) [HNew 0; HGrow 0 n]) by (cbn; auto).
    specialize (A S). cbn in A. destruct A as (s & E & (_ & O) & _).
    assert (R : forall l1 l2 s0, hruns junk nb s0 (l1 ++ l2) = match hruns junk nb s0 l1 with HOk s' => hruns junk nb s' l2 | e => e end).
    { induction l1 as [|o r IH]; intros l2 s0; [reflexivity|]. cbn [hruns app]. destruct (hstep junk nb s0 o); auto. }
    change [HNew 0; HGrow 0 n; HReserve 0 c] with ([HNew 0; HGrow 0 n] ++ [HReserve 0 c]). rewrite R.
    change (hruns junk nb (hstart nb len arr) [HNew 0; HGrow 0 n] = HOk s) in E. rewrite E. cbn [hruns hstep].
    specialize (O 0%nat). cbn in O. destruct (s_env s 0%nat) as [t|]; [|reflexivity]. destruct O as (On & Ow & _). cbn in On.
    unfold regrow. rewrite On, L, andb_false_r. reflexivity.
Qed.
Print Assumptions C104_increase_store_refuted.

(** Refuted: adding to a history over an array another one that begins one number earlier
    counts numbers twice. *)
Theorem C104_add_overlap_refuted : forall (junk : nat -> nat -> R) (nb : nat) (len : nat -> nat) (arr : nat -> nat -> R) (b i : nat),
  (b < nb)%nat -> (i + 3 <= len b)%nat ->
  let l := [HView 0 b (S i); HGrow 0 2; HView 1 b i; HGrow 1 2; HPlus 0 1] in
  (exists s, hruns junk nb (hstart nb len arr) l = HOk s /\
             s_cell s b (i + 2)%nat = arr b (i + 2)%nat + (arr b (i + 1)%nat + arr b i)) /\
  (exists a, wruns nb len (wstart arr) l = WOk a /\
             w_arr a b (i + 2)%nat = Some (arr b (i + 2)%nat + arr b (i + 1)%nat)).
Proof.
  intros junk nb len arr b i Hb Hl l. apply Nat.ltb_lt in Hb.
  assert (L1 : Nat.leb (i + 2) (len b) = true) by (apply Nat.leb_le; lia).
  assert (L2 : Nat.leb (S i + 2) (len b) = true) by (apply Nat.leb_le; lia).
  split.
  - eexists. split.
    + unfold l. cbn -[Nat.ltb Nat.leb Nat.add add_loop]. rewrite Hb. cbn -[Nat.ltb Nat.leb Nat.add add_loop]. unfold hready. cbn -[Nat.ltb Nat.leb Nat.add add_loop].
      rewrite Hb. cbn -[Nat.ltb Nat.leb Nat.add add_loop]. change (0 + 2)%nat with 2%nat. rewrite L1, L2. reflexivity.
    + cbn [s_cell add_loop t_blk t_off h_n]. change (0 + 2)%nat with 2%nat. cbn [add_loop t_blk t_off]. unfold wr. rewrite Nat.eqb_refl. cbn [andb].
      repeat match goal with |- context [Nat.leb ?x ?y && Nat.ltb ?y ?z] =>
        first [ replace (Nat.leb x y && Nat.ltb y z) with true by (symmetry; apply andb_true_iff; rewrite Nat.leb_le, Nat.ltb_lt; lia)
              | replace (Nat.leb x y && Nat.ltb y z) with false by (symmetry; apply andb_false_iff; rewrite Nat.leb_gt, Nat.ltb_ge; lia) ] end.
      rewrite !Nat.add_0_r. replace (S i + 1)%nat with (i + 2)%nat by lia. replace (S i) with (i + 1)%nat by lia. reflexivity.
  - eexists. split.
    + unfold l. cbn -[Nat.ltb Nat.leb Nat.add]. rewrite Hb. cbn -[Nat.ltb Nat.leb Nat.add]. change (0 + 2)%nat with 2%nat. rewrite L1, L2. reflexivity.
    + cbn -[Nat.ltb Nat.leb Nat.add Nat.sub]. rewrite Nat.eqb_refl. cbn [andb]. change (0 + 2)%nat with 2%nat.
      match goal with |- (if ?c then _ else _) = _ => replace c with true end.
      * replace (i + 2 - S i)%nat with 1%nat by lia. replace (S i + 1)%nat with (i + 2)%nat by lia. reflexivity.
      * symmetry. apply andb_true_iff. split; [apply Nat.leb_le; lia|apply Nat.ltb_lt; lia].
Qed.
Print Assumptions C104_add_overlap_refuted.
