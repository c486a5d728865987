(** C46: the large-strain (incremental) update. *)
From Coq Require Import List.
From Verif Require Import Base.
From Verif Require Import Diff.
From Verif Require Import LinDiff.
From Verif Require Import NemlMathModel.
From Verif Require Import NemlMathSpec.
From Verif Require Import NemlMathProofs.
From Verif Require Import TruesdellProofs.
From Verif Require Import LdModel.
From Verif Require Import LdSpec.
From Verif Require Import LdProofs.
Import ListNotations.

Theorem C46_truesdell_update : forall d_np1 d_n w_np1 w_n s_n small_np1 small_n base_A x Jinv s_np1 A B,
  update_ld_inc true d_np1 d_n w_np1 w_n s_n small_np1 small_n base_A x Jinv s_np1 A B ->
  truesdell_step (vel_grad (vsub d_np1 d_n) (vsub w_np1 w_n)) s_n (vsub small_np1 small_n) s_np1.
Proof.
  intros d1 d0 w1 w0 sn sm1 sm0 bA x Ji s A B H i j Hi Hj.
  pose proof (ld_stress true d1 d0 w1 w0 sn sm1 sm0 bA x Ji s A B H i j Hi Hj) as E.
  unfold tr_op, trace, mul2 in E. cbv beta in E. unfold stress, tr3.
  change (Lof (ld_D true d1 d0) (ld_W w1 w0)) with (vel_grad (vsub d1 d0) (vsub w1 w0)) in E. simpl rsum in *. lra.
Qed.
Print Assumptions C46_truesdell_update.

Theorem C46_jaumann_update : forall d_np1 d_n w_np1 w_n s_n small_np1 small_n base_A x Jinv s_np1 A B,
  update_ld_inc false d_np1 d_n w_np1 w_n s_n small_np1 small_n base_A x Jinv s_np1 A B ->
  truesdell_step (vel_grad vzero (vsub w_np1 w_n)) s_n (vsub small_np1 small_n) s_np1.
Proof.
  intros d1 d0 w1 w0 sn sm1 sm0 bA x Ji s A B H i j Hi Hj.
  pose proof (ld_stress false d1 d0 w1 w0 sn sm1 sm0 bA x Ji s A B H i j Hi Hj) as E.
  unfold tr_op, trace, mul2 in E. cbv beta in E. unfold stress, tr3.
  change (Lof (ld_D false d1 d0) (ld_W w1 w0)) with (vel_grad vzero (vsub w1 w0)) in E. simpl rsum in *. lra.
Qed.
Print Assumptions C46_jaumann_update.

(** Without spin the Jaumann update is the small-strain update. *)
Theorem C46_jaumann_no_spin : forall d_np1 d_n w_np1 w_n s_n small_np1 small_n base_A x Jinv s_np1 A B,
  update_ld_inc false d_np1 d_n w_np1 w_n s_n small_np1 small_n base_A x Jinv s_np1 A B ->
  veq 3 w_np1 w_n ->
  forall i, (i < 6)%nat -> s_np1 i = s_n i + (small_np1 i - small_n i).
Proof.
  intros d1 d0 w1 w0 sn sm1 sm0 bA x Ji s A B H Hw i Hi.
  pose proof (C46_jaumann_update _ _ _ _ _ _ _ _ _ _ _ _ _ H) as E.
  assert (Z : forall a b, (a < 3)%nat -> (b < 3)%nat -> vel_grad vzero (vsub w1 w0) a b = 0).
  { intros a b Ha Hb. pose proof (Hw 0%nat ltac:(lia)) as E0. pose proof (Hw 1%nat ltac:(lia)) as E1. pose proof (Hw 2%nat ltac:(lia)) as E2.
    unfold vel_grad, vsub, vzero. cases3 a Ha; cases3 b Hb; tab; cbv beta; rewrite ?E0, ?E1, ?E2; unfold Rdiv; ring. }
  assert (F : veq 9 (usym s) (usym (vadd sn (vsub sm1 sm0)))).
  { intros p Hp. rewrite (usym_vadd _ _ p Hp). destruct (ij9 p Hp) as (a & b & Ha & Hb & ->). specialize (E a b Ha Hb).
    unfold tr3 in E. simpl rsum in E. rewrite !Z in E by lia. unfold stress in E. unfold vadd. change (t2 (usym s) a b = t2 (usym sn) a b + t2 (usym (vsub sm1 sm0)) a b). lra. }
  rewrite <- (sym_usym s i Hi). rewrite (sym_veq _ _ F i Hi), (sym_usym _ i Hi). reflexivity.
Qed.
Print Assumptions C46_jaumann_no_spin.

(** A family of updates, one for each value of the parameter u, around u = t. *)
Definition ld_family (tr : bool) (d w : R -> vec) (d_n w_n s_n : vec) (small : R -> vec) (small_n : vec) (base_A x Jinv s A B : R -> vec) (t : R) : Prop :=
  locally t (fun u => update_ld_inc tr (d u) d_n (w u) w_n s_n (small u) small_n (base_A u) (x u) (Jinv u) (s u) (A u) (B u)).

(** Truesdell rate: whenever the small-strain model's tangent is the derivative of its
    stress, A and B give the derivative of the large-strain stress along any path of
    deformations and spins. *)
Theorem C46_truesdell_tangent : forall d w d_n w_n s_n small small_n base_A x Jinv s A B t d' w',
  ld_family true d w d_n w_n s_n small small_n base_A x Jinv s A B t ->
  path 6 d t d' -> path 3 w t w' ->
  path 6 small t (mv 6 (flat 6 (base_A t)) d') ->
  path 6 s t (vadd (mv 6 (flat 6 (A t)) d') (mv 3 (flat 3 (B t)) w')).
Proof.
  intros d w dn wn sn small smn bA x Ji s A B t d' w' HL Hd Hw Hsm. unfold ld_family in HL.
  destruct (locally_singleton _ _ HL) as (_ & Es & HI & EAB).
  assert (P : path 6 (fun u => truesdell_update_sym (x u) sn) t (vadd (mv 6 (flat 6 (fst (calc_tangent (Ji t) (bA t) (truesdell_update_sym (x t) sn)))) d')
          (mv 3 (flat 3 (snd (calc_tangent (Ji t) (bA t) (truesdell_update_sym (x t) sn)))) w'))).
  { apply (ld_tangent sn (fun u => vsub (d u) dn) (fun u => vsub (w u) wn) (fun u => vsub (small u) smn) x t d' w' (bA t) (Ji t)).
    - intros i Hi. unfold vsub. eapply D_eq; [apply D_minus; [apply Hd; exact Hi | apply D_const]|]. ring.
    - intros i Hi. unfold vsub. eapply D_eq; [apply D_minus; [apply Hw; exact Hi | apply D_const]|]. ring.
    - intros i Hi. unfold vsub. eapply D_eq; [apply D_minus; [apply Hsm; exact Hi | apply D_const]|]. ring.
    - revert HL. apply filter_imp. intros u (Hu & _). exact Hu.
    - exact HI. }
  rewrite <- Es, <- EAB in P. simpl fst in P. simpl snd in P.
  intros i Hi. apply (D_loc (fun u => truesdell_update_sym (x u) sn i)); [|apply P; exact Hi].
  revert HL. apply filter_imp. intros u (_ & Eu & _). rewrite Eu. reflexivity.
Qed.
Print Assumptions C46_truesdell_tangent.

(** Jaumann rate: B is the derivative with respect to the spin. *)
Theorem C46_jaumann_spin_tangent : forall d w d_n w_n s_n small small_n base_A x Jinv s A B t w',
  ld_family false d w d_n w_n s_n small small_n base_A x Jinv s A B t ->
  path 6 d t vzero -> path 3 w t w' -> path 6 small t vzero ->
  path 6 s t (mv 3 (flat 3 (B t)) w').
Proof.
  intros d w dn wn sn small smn bA x Ji s A B t w' HL Hd Hw Hsm. unfold ld_family in HL.
  destruct (locally_singleton _ _ HL) as (_ & Es & HI & EAB).
  assert (P : path 6 (fun u => truesdell_update_sym (x u) sn) t (vadd (mv 6 (flat 6 (fst (calc_tangent (Ji t) (bA t) (truesdell_update_sym (x t) sn)))) vzero)
          (mv 3 (flat 3 (snd (calc_tangent (Ji t) (bA t) (truesdell_update_sym (x t) sn)))) w'))).
  { apply (ld_tangent sn (fun u => vzero) (fun u => vsub (w u) wn) (fun u => vsub (small u) smn) x t vzero w' (bA t) (Ji t)).
    - intros i Hi. unfold vzero. apply D_const.
    - intros i Hi. unfold vsub. eapply D_eq; [apply D_minus; [apply Hw; exact Hi | apply D_const]|]. ring.
    - intros i Hi. unfold vsub. eapply D_eq; [apply D_minus; [apply Hsm; exact Hi | apply D_const]|].
      unfold mv, vzero. rewrite (rsum_ext 6 _ (fun _ => 0)) by (intros; ring). rewrite rsum_0. ring.
    - revert HL. apply filter_imp. intros u (Hu & _). exact Hu.
    - exact HI. }
  rewrite <- Es, <- EAB in P. simpl fst in P. simpl snd in P.
  intros i Hi. apply (D_loc (fun u => truesdell_update_sym (x u) sn i)).
  - revert HL. apply filter_imp. intros u (_ & Eu & _). rewrite Eu. reflexivity.
  - eapply D_eq; [apply P; exact Hi|]. unfold vadd, mv at 1, vzero. rewrite (rsum_ext 6 _ (fun _ => 0)) by (intros; ring). rewrite rsum_0. ring.
Qed.
Print Assumptions C46_jaumann_spin_tangent.

(** ** Uniaxial stretching of a pre-stressed point *)
Definition e1 (u : R) : vec := vlist [u; 0; 0; 0; 0; 0].
Definition f1 (u : R) : vec := vlist [u; 0; 0; 0; 0; 0; 0; 0; 0].
Definition eye6 : vec := fun p => delta (p / 6) (p mod 6).
Definition eye9 : vec := fun p => delta (p / 9) (p mod 9).
Definition jinv1 (u : R) : vec := fun p => if Nat.eqb (p / 9) (p mod 9) then vlist [/ (1 - u); 1; 1; 1; / (1 + u); / (1 + u); 1; / (1 + u); / (1 + u)] (p / 9)%nat else 0.
Ltac tabx := cbv [eye6 eye9 jinv1 e1 f1 ld_D ld_W vzero vsub vadd vlist nth Nat.div Nat.modulo Nat.divmod fst snd Nat.sub
  truesdell_system truesdell_mat truesdell_rhs usym sym flat rsum Nat.add Nat.mul Nat.eqb delta].

Lemma demo_family : forall u, Rabs u < 1 / 2 ->
  exists s A B, s = truesdell_update_sym (f1 (2 * u / (1 - u))) (e1 1) /\
  update_ld_inc true (e1 u) vzero vzero vzero (e1 1) (e1 u) vzero eye6 (f1 (2 * u / (1 - u))) (jinv1 u) s A B.
Proof.
  intros u Hu. apply Rabs_def2 in Hu. pose proof r2_pos.
  exists (truesdell_update_sym (f1 (2 * u / (1 - u))) (e1 1)), (fst (calc_tangent (jinv1 u) eye6 (truesdell_update_sym (f1 (2 * u / (1 - u))) (e1 1)))),
    (snd (calc_tangent (jinv1 u) eye6 (truesdell_update_sym (f1 (2 * u / (1 - u))) (e1 1)))). split; [reflexivity|]. unfold update_ld_inc. split; [|split; [reflexivity|split; [|apply surjective_pairing]]].
  - intros p Hp. cases9 p Hp; tabx; try (unfold Rdiv; ring); field; lra.
  - intros i j Hi Hj. cases9 i Hi; cases9 j Hj; tabx; (split; [try (unfold Rdiv; ring); field; lra | try (unfold Rdiv; ring); field; lra]).
Qed.
(** the hypotheses of C46_truesdell_tangent are met, and the stress it speaks of moves *)
Example C46_truesdell_example : exists s A B,
  ld_family true e1 (fun _ => vzero) vzero vzero (e1 1) e1 vzero (fun _ => eye6) (fun u => f1 (2 * u / (1 - u))) jinv1 s A B 0 /\
  path 6 e1 0 (e1 1) /\ path 6 e1 0 (mv 6 (flat 6 eye6) (e1 1)) /\ s 0 0%nat = 1 /\ mv 6 (flat 6 (A 0)) (e1 1) 0%nat = 2.
Proof.
  assert (P0 : path 6 e1 0 (e1 1)).
  { intros i Hi. cases6 i Hi; cbv [e1 vlist nth]; first [apply D_id | apply D_const]. }
  exists (fun u => truesdell_update_sym (f1 (2 * u / (1 - u))) (e1 1)),
    (fun u => fst (calc_tangent (jinv1 u) eye6 (truesdell_update_sym (f1 (2 * u / (1 - u))) (e1 1)))),
    (fun u => snd (calc_tangent (jinv1 u) eye6 (truesdell_update_sym (f1 (2 * u / (1 - u))) (e1 1)))).
  assert (L : ld_family true e1 (fun _ => vzero) vzero vzero (e1 1) e1 vzero (fun _ => eye6) (fun u => f1 (2 * u / (1 - u))) jinv1
    (fun u => truesdell_update_sym (f1 (2 * u / (1 - u))) (e1 1))
    (fun u => fst (calc_tangent (jinv1 u) eye6 (truesdell_update_sym (f1 (2 * u / (1 - u))) (e1 1))))
    (fun u => snd (calc_tangent (jinv1 u) eye6 (truesdell_update_sym (f1 (2 * u / (1 - u))) (e1 1)))) 0).
  { exists (mkposreal (1 / 2) ltac:(lra)). intros u Hu. change (Rabs (u + - 0) < 1 / 2) in Hu. rewrite Ropp_0, Rplus_0_r in Hu.
    destruct (demo_family u Hu) as (s & A & B & Es & H). subst s.
    destruct H as (H1 & H2 & H3 & H4). unfold update_ld_inc. split; [exact H1|split; [reflexivity|split; [exact H3|apply surjective_pairing]]]. }
  assert (P1 : path 6 e1 0 (mv 6 (flat 6 eye6) (e1 1))).
  { intros i Hi. eapply D_eq; [apply P0; exact Hi|]. cases6 i Hi; tab; tabx; ring. }
  split; [exact L|]. split; [exact P0|]. split; [exact P1|]. split.
  - cbv [truesdell_update_sym]. tabx. unfold Rdiv. ring.
  - assert (Q2 : is_derive (fun u => truesdell_update_sym (f1 (2 * u / (1 - u))) (e1 1) 0%nat) 0 2).
    { cbv [truesdell_update_sym]. tabx. eapply D_eq; [dall; lra|]. cbv beta. field. }
    pose proof (C46_truesdell_tangent _ _ _ _ _ _ _ _ _ _ _ _ _ 0 (e1 1) vzero L P0 (fun i _ => D_const 0 0) P1 0%nat ltac:(lia)) as Q.
    apply is_derive_unique in Q. apply is_derive_unique in Q2. rewrite Q2 in Q. unfold vadd in Q.
    match type of Q with _ = _ + ?z => assert (Z : z = 0) end.
    { unfold mv, vzero. rewrite (rsum_ext 3 _ (fun _ => 0)) by (intros; ring). apply rsum_0. }
    rewrite Z, Rplus_0_r in Q. symmetry. exact Q.
Qed.

(** Jaumann rate: A is not the derivative.  Stretching a point that already carries a
    uniaxial stress 1, with an elastic tangent equal to the identity, the stress moves at
    rate 1 and A says 2. *)
Theorem C46_jaumann_tangent_refuted : exists d w d_n w_n s_n small small_n base_A x Jinv s A B t d' w',
  ld_family false d w d_n w_n s_n small small_n base_A x Jinv s A B t /\
  path 6 d t d' /\ path 3 w t w' /\ path 6 small t (mv 6 (flat 6 (base_A t)) d') /\
  is_derive (fun u => s u 0%nat) t 1 /\
  vadd (mv 6 (flat 6 (A t)) d') (mv 3 (flat 3 (B t)) w') 0%nat = 2.
Proof.
  set (S := fun u => truesdell_update_sym (f1 u) (e1 1)).
  exists e1, (fun _ => vzero), vzero, vzero, (e1 1), e1, vzero, (fun _ => eye6), f1, (fun _ => eye9), S,
    (fun u => fst (calc_tangent eye9 eye6 (S u))), (fun u => snd (calc_tangent eye9 eye6 (S u))), 0, (e1 1), vzero.
  pose proof r2_pos.
  assert (P0 : path 6 e1 0 (e1 1)).
  { intros i Hi. cases6 i Hi; cbv [e1 vlist nth]; first [apply D_id | apply D_const]. }
  assert (I : forall D W, D = vzero -> W = vsub vzero vzero -> inverse9 eye9 (truesdell_mat D W)).
  { intros D W -> -> i j Hi Hj. cases9 i Hi; cases9 j Hj; tabx; (split; [try (unfold Rdiv; ring); field; lra | try (unfold Rdiv; ring); field; lra]). }
  split; [|split; [exact P0|split; [|split; [|split]]]].
  - unfold ld_family. apply filter_forall. intros u. unfold update_ld_inc.
    split; [|split; [reflexivity|split; [apply I; reflexivity|apply surjective_pairing]]].
    intros p Hp. cases9 p Hp; tabx; try (unfold Rdiv; ring); field; lra.
  - intros i Hi. apply D_const.
  - intros i Hi. eapply D_eq; [apply P0; exact Hi|]. cases6 i Hi; tab; tabx; ring.
  - unfold S. cbv [truesdell_update_sym]. tabx. eapply D_eq; [dall; lra|]. cbv beta. field.
  - pose proof (calc_tangent_spec vzero (vsub vzero vzero) eye9 eye6 (S 0) (I _ _ eq_refl eq_refl) (e1 1) vzero 0%nat ltac:(lia)) as Q.
    match type of Q with usym ?v 0%nat = _ => change (usym v 0%nat) with (v 0%nat) in Q end. rewrite Q. unfold S. cbv [truesdell_update_sym]. cbv [truesdell_tangent_outer mandel2full uskew mv]. tabx. unfold Rdiv. ring.
Qed.
Print Assumptions C46_jaumann_tangent_refuted.
