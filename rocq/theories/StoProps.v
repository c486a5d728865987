(** C103: tensors and orientations behave as values. *)
From Coq Require Import Arith Bool List Lra Lia.
From Verif Require Import Base.
From Verif Require Import StoModel.
From Verif Require Import StoSpec.
From Verif Require Import StoProofs.
Import ListNotations.

(** Every program of constructions, copies, moves, assignments, arithmetic and destructions,
    of any length, that does not move-assign from a window on a tensor, copy a window on a
    quaternion or add to a window another one that runs into it does what values and windows would do: same objects, same numbers, same arrays
    of the caller; it throws exactly when sizes differ in an assignment; it never touches
    memory that is not there and leaks nothing. *)
Theorem C103_values : forall (q : bool) (nb : nat) (arr : nat -> nat -> R) (l : list sop),
  spares q nb (vstart arr) l ->
  match vruns q nb (vstart arr) l with
  | VOk a => exists s, sruns q nb (sstart nb arr) l = MOk s /\ same_objects nb s a /\ no_leak s
  | VThrow => sruns q nb (sstart nb arr) l = MThrow
  | VIll => True
  end.
Proof. exact @sto_values. Qed.
Print Assumptions C103_values.

(** When all objects have been destroyed no memory of theirs is left. *)
Theorem C103_all_freed : forall (q : bool) (nb : nat) (arr : nat -> nat -> R) (l : list sop) (a : vstate),
  spares q nb (vstart arr) l -> vruns q nb (vstart arr) l = VOk a -> (forall x, v_env a x = None) ->
  exists s, sruns q nb (sstart nb arr) l = MOk s /\ forall b, m_live s b = false.
Proof. exact @sto_all_deleted. Qed.
Print Assumptions C103_all_freed.

(** A case: window, copy of it, change of the copy, assignment back through the window, move,
    everything destroyed.  The array ends with twice its numbers. *)
Definition C103_prog : list sop :=
  [SView 0 0 2 3; SCopy 1 0; SScale 1 2; SAssign 0 1; SMove 2 0; SAdd 2 2; SMoveAssign 2 1; SDel 0; SDel 1; SDel 2].
Example C103_values_case : forall arr, spares false 1 (vstart arr) C103_prog /\
  exists a, vruns false 1 (vstart arr) C103_prog = VOk a /\ (forall x, v_env a x = None) /\
    v_arr a 0%nat 3%nat = arr 0%nat 3%nat * 2 /\ v_arr a 0%nat 5%nat = arr 0%nat 5%nat.
Proof.
  intros arr. split.
  - cbn. repeat split; auto.
    + intros (b & i & j & n & m & E1 & E2 & L). cbn in E1, E2. rewrite E1 in E2. injection E2 as <- <-. lia.
    + intros _ (b & off & n & E). cbn in E. discriminate.
  - eexists. split; [reflexivity|]. split; [|split; reflexivity].
    intros x. cbn. do 3 (destruct x as [|x]; [reflexivity|]). reflexivity.
Qed.
Example C103_throw_case : forall arr, spares false 1 (vstart arr) [SNew 0 9; SView 1 0 0 6; SAssign 0 1] /\
  sruns false 1 (sstart 1 arr) [SNew 0 9; SView 1 0 0 6; SAssign 0 1] = MThrow.
Proof. intros arr. cbn. repeat split; auto. Qed.

(** Refuted: move assignment of one window to another copies nothing.  In every such
    assignment the arrays of the caller are unchanged, where an assignment of values would
    give the first array the numbers of the second. *)
Theorem C103_move_window_refuted : forall (nb : nat) (arr : nat -> nat -> R) (b c i j n : nat),
  (b < nb)%nat -> (c < nb)%nat ->
  let l := [SView 0 b i n; SView 1 c j n; SMoveAssign 0 1] in
  (exists s, sruns false nb (sstart nb arr) l = MOk s /\ forall d k, m_cell s d k = arr d k) /\
  (exists a, vruns false nb (vstart arr) l = VOk a /\ forall k, (k < n)%nat -> v_arr a b (i + k)%nat = arr c (j + k)%nat).
Proof.
  intros nb arr b c i j n Hb Hc l. apply Nat.ltb_lt in Hb, Hc. split.
  - eexists. split; [unfold l; cbn -[Nat.ltb]; rewrite Hb; cbn -[Nat.ltb]; rewrite Hc; cbn -[Nat.ltb]; rewrite Nat.eqb_refl; reflexivity|]. reflexivity.
  - eexists. split; [unfold l; cbn -[Nat.ltb]; rewrite Hb; cbn -[Nat.ltb]; rewrite Hc; cbn -[Nat.ltb]; rewrite Nat.eqb_refl; reflexivity|].
    intros k Hk. cbn -[Nat.ltb Nat.leb]. rewrite Nat.eqb_refl.
    assert (X : Nat.leb i (i + k) = true) by (apply Nat.leb_le; lia).
    assert (Y : Nat.ltb (i + k) (i + n) = true) by (apply Nat.ltb_lt; lia).
    rewrite X, Y. cbn. f_equal. lia.
Qed.
Print Assumptions C103_move_window_refuted.

(** Refuted: a tensor that owns its numbers and is move-assigned from a window becomes a
    window that still counts as owner.  Its own numbers are lost (one block that no object
    has), changing it changes the caller's array, and destroying it deletes that array. *)
Theorem C103_move_owner_refuted : forall (nb : nat) (arr : nat -> nat -> R) (b off n : nat) (v : R),
  (b < nb)%nat -> (0 < n)%nat ->
  let l := [SNew 0 n; SView 1 b off n; SMoveAssign 0 1] in
  (exists s, sruns false nb (sstart nb arr) l = MOk s /\ ~ no_leak s) /\
  (exists s, sruns false nb (sstart nb arr) (l ++ [SPut 0 0 v]) = MOk s /\ m_cell s b off = v) /\
  sruns false nb (sstart nb arr) (l ++ [SDel 0]) = MFault /\
  (exists a, vruns false nb (vstart arr) (l ++ [SPut 0 0 v; SDel 0]) = VOk a /\ v_arr a b off = arr b off).
Proof.
  intros nb arr b off n v Hb Hn l. pose proof Hb as Hb'. apply Nat.ltb_lt in Hb. pose proof Hn as Hn'. apply Nat.ltb_lt in Hn.
  split; [|split; [|split]].
  - eexists. split; [unfold l; cbn -[Nat.ltb]; rewrite Hb; cbn -[Nat.ltb]; rewrite Nat.eqb_refl; reflexivity|].
    intros K. destruct (K nb) as (x & t & E & O & B); [cbn; now rewrite Nat.eqb_refl|].
    cbn in E. unfold bind in E. destruct x as [|[|x]]; cbn in E; try discriminate; injection E as <-; cbn in *; [lia|discriminate].
  - eexists. split.
    + unfold l. cbn -[Nat.ltb]. rewrite Hb. cbn -[Nat.ltb]. rewrite Nat.eqb_refl. cbn -[Nat.ltb]. rewrite Hn. unfold into, usable. cbn -[Nat.ltb].
      rewrite Hb. reflexivity.
    + cbn -[Nat.ltb Nat.leb]. unfold wr. cbn -[Nat.ltb Nat.leb]. rewrite Nat.eqb_refl, Nat.leb_refl, Nat.sub_diag.
      assert (Y : Nat.ltb off (off + n) = true) by (apply Nat.ltb_lt; lia). rewrite Y. reflexivity.
  - unfold l. cbn -[Nat.ltb Nat.leb]. rewrite Hb. cbn -[Nat.ltb Nat.leb]. rewrite Nat.eqb_refl. cbn -[Nat.ltb Nat.leb].
    assert (Y : Nat.leb nb b = false) by (apply Nat.leb_gt; lia). now rewrite Y.
  - eexists. split.
    + unfold l. cbn -[Nat.ltb]. rewrite Hb. cbn -[Nat.ltb]. rewrite Nat.eqb_refl. cbn -[Nat.ltb]. rewrite Hn. reflexivity.
    + reflexivity.
Qed.
Print Assumptions C103_move_owner_refuted.

(** Refuted: the copy of an orientation laid over an array is laid over the same array, so
    that changing the copy changes the array and the original. *)
Theorem C103_quaternion_copy_refuted : forall (nb : nat) (arr : nat -> nat -> R) (b off : nat) (v : R),
  (b < nb)%nat ->
  let l := [SView 0 b off 4; SCopy 1 0; SPut 1 0 v] in
  (exists s t, sruns true nb (sstart nb arr) l = MOk s /\ m_env s 0%nat = Some t /\ rd s t 0 = v /\ m_cell s b off = v) /\
  (exists a, vruns true nb (vstart arr) l = VOk a /\ v_arr a b off = arr b off).
Proof.
  intros nb arr b off v Hb l. apply Nat.ltb_lt in Hb.
  assert (Y : Nat.ltb off (off + 4) = true) by (apply Nat.ltb_lt; lia).
  split.
  - eexists. eexists. split.
    + unfold l. cbn -[Nat.ltb]. rewrite Hb. unfold usable. cbn -[Nat.ltb]. rewrite Hb. cbn -[Nat.ltb]. unfold into, usable. cbn -[Nat.ltb].
      rewrite Hb. cbn -[Nat.ltb]. reflexivity.
    + split; [reflexivity|]. unfold rd. cbn -[Nat.ltb Nat.leb]. unfold wr. rewrite Nat.add_0_r, Nat.eqb_refl, Nat.leb_refl, Y, Nat.sub_diag. cbn. auto.
  - eexists. split.
    + unfold l. cbn -[Nat.ltb]. rewrite Hb. cbn -[Nat.ltb]. reflexivity.
    + reflexivity.
Qed.
Print Assumptions C103_quaternion_copy_refuted.

(** Refuted: adding to a window another one that begins one number earlier counts numbers
    twice, because the loop reads what it has already changed. *)
Theorem C103_add_overlap_refuted : forall (nb : nat) (arr : nat -> nat -> R) (b i : nat),
  (b < nb)%nat ->
  let l := [SView 0 b (S i) 2; SView 1 b i 2; SAdd 0 1] in
  (exists s, sruns false nb (sstart nb arr) l = MOk s /\
             m_cell s b (i + 2)%nat = arr b (i + 2)%nat + (arr b (i + 1)%nat + arr b i)) /\
  (exists a, vruns false nb (vstart arr) l = VOk a /\
             v_arr a b (i + 2)%nat = arr b (i + 2)%nat + arr b (i + 1)%nat).
Proof.
  intros nb arr b i Hb l. apply Nat.ltb_lt in Hb.
  assert (X1 : forall k, Nat.leb (i + k) (i + k) = true) by (intros; apply Nat.leb_refl).
  split.
  - eexists. split.
    + unfold l. cbn -[Nat.ltb add_loop]. rewrite Hb. cbn -[Nat.ltb add_loop]. unfold usable. cbn -[Nat.ltb add_loop]. rewrite Hb. cbn -[Nat.ltb add_loop].
      reflexivity.
    + cbn [m_cell add_loop t_blk t_off]. unfold wr. rewrite Nat.eqb_refl. cbn [andb].
      repeat match goal with |- context [Nat.leb ?x ?y && Nat.ltb ?y ?z] =>
        first [ replace (Nat.leb x y && Nat.ltb y z) with true by (symmetry; apply andb_true_iff; rewrite Nat.leb_le, Nat.ltb_lt; lia)
              | replace (Nat.leb x y && Nat.ltb y z) with false by (symmetry; apply andb_false_iff; rewrite Nat.leb_gt, Nat.ltb_ge; lia) ] end.
      rewrite !Nat.add_0_r. replace (S i + 1)%nat with (i + 2)%nat by lia. replace (S i) with (i + 1)%nat by lia. reflexivity.
  - eexists. split.
    + unfold l. cbn -[Nat.ltb]. rewrite Hb. cbn -[Nat.ltb]. reflexivity.
    + cbn -[Nat.ltb Nat.leb Nat.add Nat.sub]. rewrite Nat.eqb_refl. cbn [andb].
      match goal with |- (if ?c then _ else _) = _ => replace c with true end.
      * replace (i + 2 - S i)%nat with 1%nat by lia. replace (S (i + 1))%nat with (i + 2)%nat by lia. reflexivity.
      * symmetry. apply andb_true_iff. split; [destruct (i + 2)%nat eqn:E; [lia|apply Nat.leb_le; lia]|apply Nat.ltb_lt; lia].
Qed.
Print Assumptions C103_add_overlap_refuted.
