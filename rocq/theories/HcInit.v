(** Initialising the stored history of a crystal with Hu-Cocks hardening.

    A history is a flat array; each item has a place in it.  Modelled: NEMLModel::init_hist
    (src/models.cxx:34-39), SingleCrystalModel::init_static and init_state (src/cp/singlecrystal.cxx:82-98,
    its rotation only), SlipMultiStrengthSlipRule::init_hist (src/cp/sliprules.cxx:97-102, reached through
    src/cp/kinematics.cxx:84-87 and src/cp/inelasticity.cxx:177-180), History::zero (src/history.cxx:262-266),
    HuCocksHardening::init_hist (src/cp/hucocks.cxx:886-893),
    GeneralizedHuCocksHardening::init_hist (src/cp/generalizedhucocks.cxx:673-679),
    PolycrystalModel::init_hist (src/cp/polycrystal.cxx:50-64, one grain). *)
From Verif Require Import Base.
From Verif Require Import RotModel.
From Coq Require Import List Lia Lra.
Import ListNotations.

Definition put (off n : nat) (w h : vec) : vec := fun x => if andb (Nat.leb off x) (Nat.ltb x (off + n)) then w (x - off)%nat else h x.
Definition hzero (h : vec) : vec := fun _ => 0.                                        (* history.cxx 262-266 *)
(** One hardening model: where its variables are, their initial values, and whether its init_hist zeroes
    the history first (the Hu-Cocks models do). *)
Record hmod := { hm_off : nat; hm_n : nat; hm_v : vec; hm_zero : bool }.
Definition hm_init (m : hmod) (h : vec) : vec := put (hm_off m) (hm_n m) (hm_v m) (if hm_zero m then hzero h else h).
Definition rule_init (ms : list hmod) (h : vec) : vec := fold_left (fun h m => hm_init m h) ms h.     (* sliprules.cxx 97-102 *)
Definition qvec (q : quat) : vec := qcomp q.
(** History::get<Orientation> (include/history.h:122-127) makes an Orientation of the stored numbers, which
    normalises them (src/math/rotations.cxx:567-571). *)
Definition get_q (h : vec) (off : nat) : quat := mk_orientation (Quat (h off) (h (off + 1)%nat) (h (off + 2)%nat) (h (off + 3)%nat)).
Definition crystal_init (off : nat) (q : quat) (ms : list hmod) (h : vec) : vec :=
  rule_init ms (put off 4 (qvec q) (hzero h)).                                          (* models.cxx 34-39 *)
(** One grain of a polycrystal: the orientation is set afterwards (polycrystal.cxx 55-56). *)
Definition grain_init (off : nat) (q0 q : quat) (ms : list hmod) (h : vec) : vec := put off 4 (qvec q) (crystal_init off q0 ms h).

(** *** Specification *)
Definition apart (o1 n1 o2 n2 : nat) : Prop := (o1 + n1 <= o2 \/ o2 + n2 <= o1)%nat.
(** The items of a crystal's history do not overlap. *)
Definition layout (off : nat) (ms : list hmod) : Prop :=
  (forall m, In m ms -> apart off 4 (hm_off m) (hm_n m)) /\
  forall i j a b, nth_error ms i = Some a -> nth_error ms j = Some b -> i <> j -> apart (hm_off a) (hm_n a) (hm_off b) (hm_n b).

(** *** Proofs *)
Lemma put_in off n w h x : (off <= x < off + n)%nat -> put off n w h x = w (x - off)%nat.
Proof. intros H. unfold put. destruct (Nat.leb_spec off x), (Nat.ltb_spec x (off + n)); try lia; reflexivity. Qed.
Lemma put_out off n w h x : (x < off \/ off + n <= x)%nat -> put off n w h x = h x.
Proof. intros H. unfold put. destruct (Nat.leb_spec off x), (Nat.ltb_spec x (off + n)); try lia; reflexivity. Qed.
Lemma rule_init_keep ms x : forall h, (forall m, In m ms -> hm_zero m = false /\ (x < hm_off m \/ hm_off m + hm_n m <= x)%nat) -> rule_init ms h x = h x.
Proof.
  induction ms as [|m ms IH]; intros h H; [reflexivity|]. cbn. rewrite IH by (intros a Ha; apply H; right; exact Ha).
  destruct (H m (or_introl eq_refl)) as [Z O]. unfold hm_init. rewrite Z. apply put_out. exact O.
Qed.
Lemma rule_init_zero ms x : forall h, (forall m, In m ms -> (x < hm_off m \/ hm_off m + hm_n m <= x)%nat) -> existsb hm_zero ms = true -> rule_init ms h x = 0.
Proof.
  assert (K0 : forall ms h, (forall m, In m ms -> (x < hm_off m \/ hm_off m + hm_n m <= x)%nat) -> h x = 0 -> rule_init ms h x = 0).
  { induction ms0 as [|m ms0 IH]; intros h H E; [exact E|]. cbn. apply IH; [intros a Ha; apply H; right; exact Ha|].
    unfold hm_init. rewrite put_out by (apply H; left; reflexivity). destruct (hm_zero m); [reflexivity|exact E]. }
  induction ms as [|m ms IH]; intros h H E; [discriminate|]. cbn in *. destruct (hm_zero m) eqn:Z.
  - apply K0; [intros a Ha; apply H; right; exact Ha|]. unfold hm_init. rewrite put_out by (apply H; left; reflexivity). rewrite Z. reflexivity.
  - apply IH; [intros a Ha; apply H; right; exact Ha|exact E].
Qed.
(** Without a zeroing model the crystal starts in the orientation asked for ... *)
Lemma crystal_init_kept off q ms h : layout off ms -> existsb hm_zero ms = false -> get_q (crystal_init off q ms h) off = mk_orientation q.
Proof.
  intros [Hl _] Hz. assert (K : forall i, (i < 4)%nat -> crystal_init off q ms h (off + i)%nat = qcomp q i).
  { intros i Hi. unfold crystal_init. rewrite rule_init_keep.
    - rewrite put_in by lia. unfold qvec. f_equal. lia.
    - intros m Hm. split.
      + destruct (hm_zero m) eqn:Z; [|reflexivity]. assert (existsb hm_zero ms = true) by (apply existsb_exists; exists m; auto). congruence.
      + specialize (Hl m Hm). unfold apart in Hl. lia. }
  unfold get_q. pose proof (K 0%nat ltac:(lia)) as K0. rewrite Nat.add_0_r in K0. rewrite K0, !K by lia. destruct q; reflexivity.
Qed.
(** ... with one it starts half-turned about the z axis, whatever was asked for. *)
Lemma crystal_init_lost off q ms h : layout off ms -> existsb hm_zero ms = true -> get_q (crystal_init off q ms h) off = Quat 0 0 0 1.
Proof.
  intros [Hl _] Hz. assert (K : forall i, (i < 4)%nat -> crystal_init off q ms h (off + i)%nat = 0).
  { intros i Hi. unfold crystal_init. apply rule_init_zero; [|exact Hz]. intros m Hm. specialize (Hl m Hm). unfold apart in Hl. lia. }
  unfold get_q. pose proof (K 0%nat ltac:(lia)) as K0. rewrite Nat.add_0_r in K0. rewrite K0, !K by lia.
  unfold mk_orientation, normalize_. cbv zeta. cbn [q0 q1 q2 q3]. destruct (Req_EM_T _ 0) as [E|E]; [reflexivity|].
  exfalso. apply E. unfold qnorm. cbn [q0 q1 q2 q3]. rewrite !Rmult_0_r, !Rplus_0_r. apply sqrt_0.
Qed.
(** A grain of a polycrystal is not affected. *)
Lemma grain_init_kept off q0 q ms h : get_q (grain_init off q0 q ms h) off = mk_orientation q.
Proof.
  assert (K : forall i, (i < 4)%nat -> grain_init off q0 q ms h (off + i)%nat = qcomp q i).
  { intros i Hi. unfold grain_init. rewrite put_in by lia. unfold qvec. f_equal. lia. }
  unfold get_q. pose proof (K 0%nat ltac:(lia)) as K0. rewrite Nat.add_0_r in K0. rewrite K0, !K by lia. destruct q; reflexivity.
Qed.
(** The variables of a hardening model get their initial values if no model after it zeroes ... *)
Lemma rule_init_app a b h : rule_init (a ++ b) h = rule_init b (rule_init a h).
Proof. unfold rule_init. apply fold_left_app. Qed.
Lemma nth_mid (pre post : list hmod) m : nth_error (pre ++ m :: post) (length pre) = Some m.
Proof. rewrite nth_error_app2 by lia. rewrite Nat.sub_diag. reflexivity. Qed.
Lemma apart_after off pre m post a : layout off (pre ++ m :: post) -> In a post -> apart (hm_off a) (hm_n a) (hm_off m) (hm_n m).
Proof.
  intros [_ Hl] Ha. apply In_nth_error in Ha. destruct Ha as [i Hi].
  apply (Hl (length pre + S i)%nat (length pre)); [|apply nth_mid|lia].
  rewrite nth_error_app2 by lia. replace (length pre + S i - length pre)%nat with (S i) by lia. exact Hi.
Qed.
Lemma strength_init_kept off q pre m post h i : layout off (pre ++ m :: post) -> existsb hm_zero post = false -> (i < hm_n m)%nat ->
  crystal_init off q (pre ++ m :: post) h (hm_off m + i)%nat = hm_v m i.
Proof.
  intros Hl Hz Hi. unfold crystal_init. rewrite rule_init_app.
  change (rule_init post (hm_init m (rule_init pre (put off 4 (qvec q) (hzero h)))) (hm_off m + i)%nat = hm_v m i).
  rewrite rule_init_keep.
  - unfold hm_init. rewrite put_in by lia. f_equal. lia.
  - intros a Ha. split.
    + destruct (hm_zero a) eqn:Z; [|reflexivity]. assert (existsb hm_zero post = true) by (apply existsb_exists; exists a; auto). congruence.
    + pose proof (apart_after off pre m post a Hl Ha) as K. unfold apart in K. lia.
Qed.
(** ... and zeros otherwise. *)
Lemma strength_init_lost off q pre m post h i : layout off (pre ++ m :: post) -> existsb hm_zero post = true -> (i < hm_n m)%nat ->
  crystal_init off q (pre ++ m :: post) h (hm_off m + i)%nat = 0.
Proof.
  intros Hl Hz Hi. unfold crystal_init. rewrite rule_init_app.
  change (rule_init post (hm_init m (rule_init pre (put off 4 (qvec q) (hzero h)))) (hm_off m + i)%nat = 0).
  apply rule_init_zero; [|exact Hz]. intros a Ha. pose proof (apart_after off pre m post a Hl Ha) as K. unfold apart in K. lia.
Qed.
