(** Proofs about the integer helpers and angle conversions. *)
From Coq Require Import String ZArith List Lia.
From Verif Require Import Base.
From Verif Require Import NemlMathModel.
Import ListNotations.
Local Open Scope Z_scope.

Lemma gcd_rec_ok : forall fuel a b, (Z.abs_nat a < fuel)%nat -> exists g, gcd_rec fuel a b = Some g /\ Z.abs g = Z.gcd a b.
Proof.
  induction fuel as [|f IH]; intros a b H; [lia|]. simpl. destruct (Z.eqb_spec a 0) as [->|E].
  - exists b. split; [reflexivity|]. reflexivity.
  - destruct (IH (Z.rem b a) a) as (g & Hg & E2).
    + pose proof (Z.rem_bound_abs b a E). lia.
    + exists g. split; [exact Hg|]. rewrite E2. apply Z.gcd_rem. exact E.
Qed.
Lemma gcd_ok : forall a b, exists g, gcd a b = Some g /\ Z.abs g = Z.gcd a b.
Proof. intros. apply gcd_rec_ok. lia. Qed.

Lemma common_ok : forall r c, exists g,
  fold_left (fun c x => match c with Some c => gcd c x | None => None end) r (Some c) = Some g /\
  (g | c) /\ List.Forall (fun x => (g | x)) r /\ (forall d, (d | c) -> List.Forall (fun x => (d | x)) r -> (d | g)).
Proof.
  induction r as [|x r IH]; intros c.
  - exists c. simpl. split; [reflexivity|]. split; [apply Z.divide_refl|]. split; [constructor|]. intros d Hd _. exact Hd.
  - simpl. destruct (gcd_ok c x) as (g0 & E0 & A0). rewrite E0. destruct (IH g0) as (g & E & D1 & D2 & D3).
    assert (gc : (g0 | c)) by (apply Z.divide_abs_l; rewrite A0; apply Z.gcd_divide_l).
    assert (gx : (g0 | x)) by (apply Z.divide_abs_l; rewrite A0; apply Z.gcd_divide_r).
    exists g. split; [exact E|]. split; [eapply Z.divide_trans; eassumption|].
    split; [constructor; [eapply Z.divide_trans; eassumption | exact D2]|].
    intros d Hd HF. inversion HF; subst. apply D3; [|assumption]. apply Z.divide_abs_r. rewrite A0. apply Z.gcd_greatest; assumption.
Qed.
Lemma common_gcd_ok : forall l, l <> [] -> exists g, common_gcd l = Some g /\
  List.Forall (fun x => (g | x)) l /\ (forall d, List.Forall (fun x => (d | x)) l -> (d | g)).
Proof.
  intros [|c r] H; [congruence|]. destruct (common_ok r c) as (g & E & D1 & D2 & D3). exists g. split; [exact E|].
  split; [constructor; assumption|]. intros d Hd. inversion Hd; subst. apply D3; assumption.
Qed.
Lemma reduce_ok : forall l, (exists x, In x l /\ x <> 0) -> exists k r, 0 < k /\ reduce_gcd l = Some r /\
  l = map (Z.mul k) r /\ (forall d, List.Forall (fun x => (d | x)) r -> (d | 1)).
Proof.
  intros l (x & Hx & Nx). destruct (common_gcd_ok l) as (g & E & D1 & D2). { intros ->; destruct Hx. }
  rewrite List.Forall_forall in D1.
  assert (G : g <> 0). { intros ->. apply Nx. destruct (D1 x Hx) as [z ->]. ring. }
  exists (Z.abs g), (map (fun x => Z.quot x (Z.abs g)) l). split; [lia|].
  assert (Q : forall y, In y l -> y = Z.abs g * Z.quot y (Z.abs g)).
  { intros y Hy. assert (D : (Z.abs g | y)) by (apply Z.divide_abs_l; apply D1; exact Hy). destruct D as [z ->]. rewrite Z.quot_mul by lia. ring. }
  split; [unfold reduce_gcd; rewrite E; destruct (Z.eqb_spec g 0); [contradiction | reflexivity]|].
  split; [rewrite map_map; rewrite <- (map_id l) at 1; apply map_ext_in; exact Q|].
  intros d Hd. rewrite List.Forall_forall in Hd.
  assert (K : (Z.abs g * d | g)).
  { apply D2. apply List.Forall_forall. intros y Hy. rewrite (Q y Hy). apply Z.mul_divide_mono_l. apply Hd. apply in_map_iff. exists y; auto. }
  apply Z.divide_abs_r in K. rewrite <- (Z.mul_1_r (Z.abs g)) in K at 2. apply Z.mul_divide_cancel_l in K; [exact K | lia].
Qed.
Lemma reduce_zero : forall l, l <> [] -> List.Forall (fun x => x = 0) l -> reduce_gcd l = None.
Proof.
  intros l Hl H. destruct (common_gcd_ok l Hl) as (g & E & D1 & D2). unfold reduce_gcd. rewrite E.
  assert (Z : (0 | g)). { apply D2. eapply List.Forall_impl; [|exact H]. intros a ->. apply Z.divide_refl. }
  destruct Z as [z ->]. rewrite Z.mul_0_r. reflexivity.
Qed.
