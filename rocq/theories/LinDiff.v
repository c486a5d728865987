(** Solutions of differentiable linear systems are differentiable. *)
From Verif Require Import Base.
From Verif Require Import Diff.

Lemma D_zero_times_cont : forall f g t a, is_derive f t a -> f t = 0 -> continuous g t ->
  is_derive (fun u => f u * g u) t (a * g t).
Proof.
  intros f g t a Hf H0 Hg.
  apply is_derive_Reals. apply is_derive_Reals in Hf. intros e He.
  assert (Hc : forall e', 0 < e' -> exists d : posreal, forall h, Rabs h < d -> Rabs (g (t + h) - g t) < e').
  { intros e' He'. specialize (Hg (fun y => Rabs (y - g t) < e')).
    assert (L : locally (g t) (fun y => Rabs (y - g t) < e')).
    { exists (mkposreal e' He'). intros y Hy. exact Hy. }
    specialize (Hg L). destruct Hg as [d Hd]. exists d. intros h Hh. apply Hd. unfold ball; simpl. unfold AbsRing_ball, abs, minus, plus, opp; simpl.
    replace (t + h + - t) with h by ring. exact Hh. }
  set (K := Rabs (g t) + 1).
  assert (HK : 0 < K) by (unfold K; pose proof (Rabs_pos (g t)); lra).
  set (A := Rabs a + 1). assert (HA : 0 < A) by (unfold A; pose proof (Rabs_pos a); lra).
  destruct (Hf (e / (2 * K))) as [d1 Hd1]. { apply Rdiv_lt_0_compat; lra. }
  destruct (Hc (Rmin 1 (e / (2 * A)))) as [d2 Hd2]. { apply Rmin_pos; [lra|]. apply Rdiv_lt_0_compat; lra. }
  assert (Hm : 0 < Rmin d1 d2) by (apply Rmin_pos; [apply cond_pos | apply cond_pos]).
  exists (mkposreal _ Hm). simpl. intros h Hh0 Hh.
  assert (Hh1 : Rabs h < d1) by (eapply Rlt_le_trans; [exact Hh | apply Rmin_l]).
  assert (Hh2 : Rabs h < d2) by (eapply Rlt_le_trans; [exact Hh | apply Rmin_r]).
  specialize (Hd1 h Hh0 Hh1). specialize (Hd2 h Hh2). rewrite H0 in *.
  replace ((f (t + h) * g (t + h) - 0 * g t) / h - a * g t) with
    (((f (t + h) - 0) / h - a) * g (t + h) + a * (g (t + h) - g t)) by (field; exact Hh0).
  eapply Rle_lt_trans; [apply Rabs_triang|]. rewrite !Rabs_mult.
  assert (G : Rabs (g (t + h)) <= K).
  { unfold K. replace (g (t + h)) with (g (t + h) - g t + g t) by ring. eapply Rle_trans; [apply Rabs_triang|].
    assert (Rabs (g (t + h) - g t) < 1) by (eapply Rlt_le_trans; [exact Hd2 | apply Rmin_l]). lra. }
  assert (G2 : Rabs (g (t + h) - g t) < e / (2 * A)) by (eapply Rlt_le_trans; [exact Hd2 | apply Rmin_r]).
  assert (P1 : Rabs ((f (t + h) - 0) / h - a) * Rabs (g (t + h)) <= e / (2 * K) * K).
  { apply Rmult_le_compat; try apply Rabs_pos; lra. }
  assert (P2 : Rabs a * Rabs (g (t + h) - g t) < e / 2).
  { destruct (Req_dec (Rabs a) 0) as [E|E]; [rewrite E; lra|].
    assert (0 < Rabs a) by (pose proof (Rabs_pos a); lra).
    apply Rlt_trans with (Rabs a * (e / (2 * A))); [apply Rmult_lt_compat_l; assumption|].
    unfold A. apply Rmult_lt_reg_r with (2 * (Rabs a + 1)); [lra|].
    replace (Rabs a * (e / (2 * (Rabs a + 1))) * (2 * (Rabs a + 1))) with (Rabs a * e) by (field; lra).
    nra. }
  replace (e / (2 * K) * K) with (e / 2) in P1 by (field; lra). lra.
Qed.

Lemma rsum_abs : forall n f, Rabs (rsum n f) <= rsum n (fun i => Rabs (f i)).
Proof.
  induction n as [|n IH]; intros f; simpl; [rewrite Rabs_R0; lra|].
  eapply Rle_trans; [apply Rabs_triang|]. pose proof (IH f). lra.
Qed.
Lemma rsum_le : forall n f g, (forall i, (i < n)%nat -> f i <= g i) -> rsum n f <= rsum n g.
Proof. induction n as [|n IH]; intros f g H; simpl; [lra|]. pose proof (IH f g ltac:(auto)). pose proof (H n ltac:(lia)). lra. Qed.
Lemma rsum_term_le : forall n f i, (forall j, (j < n)%nat -> 0 <= f j) -> (i < n)%nat -> f i <= rsum n f.
Proof.
  induction n as [|n IH]; intros f i H Hi; [lia|]. simpl.
  assert (0 <= rsum n f) by (apply rsum_nonneg; auto). pose proof (H n ltac:(lia)).
  destruct (Nat.eq_dec i n) as [->|E]; [lra|]. pose proof (IH f i ltac:(auto) ltac:(lia)). lra.
Qed.
Lemma cont_rsum : forall n (F : R -> nat -> R) t, (forall i, (i < n)%nat -> continuous (fun u => F u i) t) ->
  continuous (fun u => rsum n (F u)) t.
Proof.
  induction n as [|n IH]; intros F t H; simpl.
  - apply continuous_const.
  - apply (continuous_plus (fun u => rsum n (F u)) (fun u => F u n)); [apply IH; auto | apply H; lia].
Qed.
Lemma cont_abs : forall (f : R -> R) (t : R), continuous f t -> continuous (fun u => Rabs (f u)) t.
Proof. intros f t H. apply (continuous_comp f Rabs); [exact H | apply continuous_Rabs]. Qed.
Lemma cont_mult : forall (f g : R -> R) (t : R), continuous f t -> continuous g t -> continuous (fun u => f u * g u) t.
Proof. intros f g t Hf Hg. apply (continuous_mult f g t Hf Hg). Qed.
Lemma cont_minus : forall (f g : R -> R) (t : R), continuous f t -> continuous g t -> continuous (fun u => f u - g u) t.
Proof. intros f g t Hf Hg. apply (continuous_minus f g t Hf Hg). Qed.
Lemma cont_const : forall (k t : R), continuous (fun _ : R => k) t.
Proof. intros. apply continuous_const. Qed.
Lemma cont_squeeze0 : forall (f g : R -> R) (t : R), continuous g t -> g t = 0 -> f t = 0 ->
  locally t (fun u => Rabs (f u) <= g u) -> continuous f t.
Proof.
  intros f g t Hg G0 F0 L P HP. rewrite F0 in HP. destruct HP as [e He].
  assert (Lg : locally (g t) (fun y => y < e)). { apply (open_lt e). rewrite G0. apply cond_pos. }
  specialize (Hg _ Lg). unfold filtermap in *. generalize (filter_and _ _ L Hg). apply filter_imp.
  intros u [H1 H2]. apply He. unfold ball; simpl. unfold AbsRing_ball, abs, minus, plus, opp; simpl.
  replace (f u + - 0) with (f u) by ring. lra.
Qed.

Lemma lin_solve_diff : forall n (J : R -> mat) (r x : R -> vec) t (J' : mat) (r' : vec) (Jinv : mat),
  (forall i j, (i < n)%nat -> (j < n)%nat -> is_derive (fun u => J u i j) t (J' i j)) ->
  path n r t r' ->
  locally t (fun u => veq n (mv n (J u) (x u)) (r u)) ->
  (forall i j, (i < n)%nat -> (j < n)%nat -> mm n Jinv (J t) i j = delta i j) ->
  path n x t (mv n Jinv (vsub r' (mv n J' (x t)))).
Proof.
  intros n J r x t J' r' Jinv HJ Hr HL Hinv.
  set (E := fun u k j => J u k j - J t k j).
  assert (DE : forall k j, (k < n)%nat -> (j < n)%nat -> is_derive (fun u => E u k j) t (J' k j)).
  { intros k j Hk Hj. unfold E. eapply D_eq; [apply D_minus; [apply HJ; assumption | apply D_const]|]. ring. }
  assert (E0 : forall k j, E t k j = 0) by (intros; unfold E; ring).
  assert (X : forall u, veq n (mv n (J u) (x u)) (r u) -> forall i, (i < n)%nat ->
     x u i = rsum n (fun k => Jinv i k * r u k) - rsum n (fun k => rsum n (fun j => Jinv i k * (E u k j * x u j)))).
  { intros u Hu i Hi. rewrite <- rsum_minus. symmetry.
    transitivity (rsum n (fun k => Jinv i k * rsum n (fun j => J t k j * x u j))).
    - apply rsum_ext. intros k Hk. rewrite <- (Hu k Hk). unfold mv. rewrite rsum_scal, <- Rmult_minus_distr_l, <- rsum_minus. f_equal.
      apply rsum_ext. intros j Hj. unfold E. ring.
    - rewrite <- (rsum_delta n i (x u) Hi).
      transitivity (rsum n (fun k => rsum n (fun j => Jinv i k * J t k j * x u j))).
      + apply rsum_ext. intros k Hk. rewrite <- rsum_scal. apply rsum_ext. intros; ring.
      + rewrite rsum_swap. apply rsum_ext. intros j Hj. rewrite <- (Hinv i j Hi Hj). unfold mm. rewrite <- rsum_scal_r. apply rsum_ext. intros; ring. }
  (* a bound on x near t *)
  set (N := fun u => rsum n (fun i => Rabs (x u i))).
  set (A := fun u => rsum n (fun i => rsum n (fun k => Rabs (Jinv i k * r u k)))).
  set (B := fun u => rsum n (fun i => rsum n (fun k => rsum n (fun j => Rabs (Jinv i k * E u k j))))).
  assert (CA : continuous A t).
  { apply (cont_rsum n (fun u i => rsum n (fun k => Rabs (Jinv i k * r u k)))). intros i Hi.
    apply (cont_rsum n (fun u k => Rabs (Jinv i k * r u k))). intros k Hk. apply cont_abs. apply cont_mult; [apply cont_const|].
    eapply D_cont. apply Hr. exact Hk. }
  assert (CB : continuous B t).
  { apply (cont_rsum n (fun u i => rsum n (fun k => rsum n (fun j => Rabs (Jinv i k * E u k j))))). intros i Hi.
    apply (cont_rsum n (fun u k => rsum n (fun j => Rabs (Jinv i k * E u k j)))). intros k Hk.
    apply (cont_rsum n (fun u j => Rabs (Jinv i k * E u k j))). intros j Hj. apply cont_abs. apply cont_mult; [apply cont_const|].
    eapply D_cont. apply DE; assumption. }
  assert (B0 : B t = 0).
  { unfold B. rewrite (rsum_ext n _ (fun _ => 0)); [apply rsum_0|]. intros i Hi.
    rewrite (rsum_ext n _ (fun _ => 0)); [apply rsum_0|]. intros k Hk.
    rewrite (rsum_ext n _ (fun _ => 0)); [apply rsum_0|]. intros j Hj. rewrite E0, Rmult_0_r. apply Rabs_R0. }
  assert (LN : locally t (fun u => N u <= 2 * (A t + 1))).
  { assert (LA : locally t (fun u => A u < A t + 1)). { apply (CA (fun y => y < A t + 1)). apply (open_lt (A t + 1)). lra. }
    assert (LB : locally t (fun u => B u < 1 / 2)). { apply (CB (fun y => y < 1 / 2)). apply (open_lt (1 / 2)). rewrite B0. lra. }
    generalize (filter_and _ _ HL (filter_and _ _ LA LB)). apply filter_imp. intros u [Hu [Ha Hb]].
    assert (Hn : N u <= A u + B u * N u).
    { unfold N at 1. eapply Rle_trans; [apply (rsum_le n _ (fun i => rsum n (fun k => Rabs (Jinv i k * r u k)) + rsum n (fun k => rsum n (fun j => Rabs (Jinv i k * E u k j))) * N u))|].
      - intros i Hi. rewrite (X u Hu i Hi). unfold Rminus. eapply Rle_trans; [apply Rabs_triang|]. rewrite Rabs_Ropp.
        apply Rplus_le_compat; [apply rsum_abs|]. eapply Rle_trans; [apply rsum_abs|]. rewrite <- rsum_scal_r. apply rsum_le. intros k Hk.
        eapply Rle_trans; [apply rsum_abs|]. rewrite <- rsum_scal_r. apply rsum_le. intros j Hj.
        rewrite <- Rmult_assoc, (Rabs_mult _ (x u j)). apply Rmult_le_compat_l; [apply Rabs_pos|].
        unfold N. apply (rsum_term_le n (fun i => Rabs (x u i)) j); [intros; apply Rabs_pos | exact Hj].
      - rewrite rsum_plus, rsum_scal_r. unfold A, B. lra. }
    assert (0 <= N u) by (apply rsum_nonneg; intros; apply Rabs_pos). nra. }
  assert (Cx : forall i, (i < n)%nat -> continuous (fun u => x u i) t).
  { intros i Hi.
    assert (C2 : continuous (fun u => rsum n (fun k => rsum n (fun j => Jinv i k * (E u k j * x u j)))) t).
    { apply (cont_squeeze0 _ (fun u => rsum n (fun k => rsum n (fun j => Rabs (Jinv i k * E u k j) * (2 * (A t + 1)))))).
      - apply (cont_rsum n (fun u k => rsum n (fun j => Rabs (Jinv i k * E u k j) * (2 * (A t + 1))))). intros k Hk.
        apply (cont_rsum n (fun u j => Rabs (Jinv i k * E u k j) * (2 * (A t + 1)))). intros j Hj.
        apply cont_mult; [|apply cont_const]. apply cont_abs. apply cont_mult; [apply cont_const|]. eapply D_cont. apply DE; assumption.
      - rewrite (rsum_ext n _ (fun _ => 0)); [apply rsum_0|]. intros k Hk.
        rewrite (rsum_ext n _ (fun _ => 0)); [apply rsum_0|]. intros j Hj. rewrite E0, Rmult_0_r, Rabs_R0. ring.
      - rewrite (rsum_ext n _ (fun _ => 0)); [apply rsum_0|]. intros k Hk.
        rewrite (rsum_ext n _ (fun _ => 0)); [apply rsum_0|]. intros j Hj. rewrite E0. ring.
      - revert LN. apply filter_imp. intros u Hu. eapply Rle_trans; [apply rsum_abs|]. apply rsum_le. intros k Hk.
        eapply Rle_trans; [apply rsum_abs|]. apply rsum_le. intros j Hj. rewrite <- Rmult_assoc, (Rabs_mult _ (x u j)).
        apply Rmult_le_compat_l; [apply Rabs_pos|]. eapply Rle_trans; [|exact Hu].
        unfold N. apply (rsum_term_le n (fun i => Rabs (x u i)) j); [intros; apply Rabs_pos | exact Hj]. }
    apply (continuous_ext_loc (fun u => x u i) (fun u => rsum n (fun k => Jinv i k * r u k) - rsum n (fun k => rsum n (fun j => Jinv i k * (E u k j * x u j)))) t).
    - revert HL. apply filter_imp. intros u Hu. symmetry. apply X; assumption.
    - apply cont_minus; [|exact C2]. apply (cont_rsum n (fun u k => Jinv i k * r u k)). intros k Hk. apply cont_mult; [apply cont_const|].
      eapply D_cont. apply Hr. exact Hk. }
  intros i Hi.
  apply (D_loc (fun u => rsum n (fun k => Jinv i k * r u k) - rsum n (fun k => rsum n (fun j => Jinv i k * (E u k j * x u j))))).
  { revert HL. apply filter_imp. intros u Hu. symmetry. apply X; assumption. }
  eapply D_eq.
  { apply D_minus.
    - apply (D_rsum n (fun u k => Jinv i k * r u k) t (fun k => Jinv i k * r' k)). intros k Hk.
      eapply D_eq; [apply D_mult; [apply D_const | apply Hr; exact Hk]|]. cbv beta. ring.
    - apply (D_rsum n (fun u k => rsum n (fun j => Jinv i k * (E u k j * x u j))) t (fun k => rsum n (fun j => Jinv i k * (J' k j * x t j)))). intros k Hk.
      apply (D_rsum n (fun u j => Jinv i k * (E u k j * x u j)) t (fun j => Jinv i k * (J' k j * x t j))). intros j Hj.
      eapply D_eq; [apply D_mult; [apply D_const | apply D_zero_times_cont; [apply DE; assumption | apply E0 | apply Cx; exact Hj]]|]. cbv beta. ring. }
  unfold mv, vsub. rewrite <- rsum_minus. apply rsum_ext. intros k Hk. rewrite rsum_scal. ring.
Qed.
