(** Proofs about the precipitation model. *)
From Verif Require Import Base Diff.
From Verif Require Import HcModel HcSpec SlipProofs.
From Coq Require Import Lia Lra.

(** *** Products *)
Lemma rprod_ext n f g : (forall i, (i < n)%nat -> f i = g i) -> rprod n f = rprod n g.
Proof. induction n; cbn; intros H; [reflexivity|]. rewrite IHn, H by (try lia; intros; apply H; lia). reflexivity. Qed.
Lemma rprod_pos n f : (forall i, (i < n)%nat -> 0 < f i) -> 0 < rprod n f.
Proof. induction n; cbn; intros H; [lra|]. apply Rmult_lt_0_compat; [apply IHn; intros; apply H; lia|apply H; lia]. Qed.
Lemma rprod_le n f g : (forall i, (i < n)%nat -> 0 < f i <= g i) -> rprod n f <= rprod n g.
Proof.
  induction n; cbn; intros H; [lra|]. pose proof (H n ltac:(lia)).
  apply Rmult_le_compat; try lra; [left; apply rprod_pos; intros; apply H; lia|apply IHn; intros; apply H; lia].
Qed.
Lemma rprod_lt n f g i : (i < n)%nat -> f i < g i -> (forall j, (j < n)%nat -> 0 < f j <= g j) -> rprod n f < rprod n g.
Proof.
  revert i. induction n; intros i Hi Hlt H; [lia|]. cbn. pose proof (H n ltac:(lia)) as Hn.
  assert (P : 0 < rprod n f) by (apply rprod_pos; intros; apply H; lia).
  assert (Q : rprod n f <= rprod n g) by (apply rprod_le; intros; apply H; lia).
  destruct (Nat.eq_dec i n) as [->|Hne].
  - apply Rlt_le_trans with (rprod n f * g n); [apply Rmult_lt_compat_l; lra|apply Rmult_le_compat_r; lra].
  - assert (Q' : rprod n f < rprod n g) by (apply (IHn i); [lia|exact Hlt|intros; apply H; lia]).
    apply Rle_lt_trans with (rprod n f * g n); [apply Rmult_le_compat_l; lra|apply Rmult_lt_compat_r; lra].
Qed.
Lemma D_rprod n (F : R -> nat -> R) t d : (forall i, (i < n)%nat -> is_derive (fun u => F u i) t (d i)) ->
  is_derive (fun u => rprod n (F u)) t (rsum n (fun i => rprod n (fun j => if Nat.eqb i j then d j else F t j))).
Proof.
  induction n as [|n IH]; intros H; [cbn; apply D_const|].
  eapply D_eq; [cbn [rprod]; apply D_mult; [apply IH; intros; apply H; lia|apply H; lia]|].
  cbn [rsum rprod]. rewrite Nat.eqb_refl. f_equal.
  - rewrite <- rsum_scal_r. apply rsum_ext. intros i Hi.
    destruct (Nat.eqb_spec i n); [lia|reflexivity].
  - f_equal. apply rprod_ext. intros i Hi. destruct (Nat.eqb_spec n i); [lia|reflexivity].
Qed.

(** *** Composition, driving force *)
Lemma hc_vm_pos p : hc_phys p -> 0 < hp_vm p.
Proof. intros H. destruct (hy_pos p H) as (?&?&?&?&?&?&?&?&?&?). apply Rdiv_lt_0_compat; assumption. Qed.
Lemma hc_D_pos p : hc_phys p -> 0 < hp_D p.
Proof. intros H. destruct (hy_pos p H) as (?&?&?&?&?&?&?&?&?&?). apply Rmult_lt_0_compat; [assumption|apply exp_pos]. Qed.
Lemma hc_mass p f i : f <> 1 -> f * hp_cp p i + (1 - f) * hp_c p f i = hp_c0 p i.
Proof. intros H. unfold hp_c. field. lra. Qed.
Lemma hc_mass_unique p f i c : f <> 1 -> f * hp_cp p i + (1 - f) * c = hp_c0 p i -> c = hp_c p f i.
Proof. intros H E. unfold hp_c. rewrite <- E. field. lra. Qed.
Lemma hc_dc_neg p f i : hc_phys p -> (i < hp_n p)%nat -> f <> 1 -> hp_dc p f i < 0.
Proof.
  intros H Hi Hf. destruct (hy_c p H i Hi). unfold hp_dc.
  assert (0 < (1 - f) ^ 2) by (apply pow2_gt_0; lra).
  apply Ropp_lt_cancel. rewrite Ropp_0. replace (- ((hp_c0 p i - hp_cp p i) / (1 - f) ^ 2)) with ((hp_cp p i - hp_c0 p i) / (1 - f) ^ 2) by (field; lra).
  apply Rdiv_lt_0_compat; lra.
Qed.
Lemma D_hc_c p i (f : R -> R) t v : is_derive f t v -> f t <> 1 -> is_derive (fun u => hp_c p (f u) i) t (hp_dc p (f t) i * v).
Proof.
  intros H Hf. unfold hp_c, hp_dc. eapply D_eq.
  - apply D_div; [apply D_minus; [apply D_const|apply D_mult; [exact H|apply D_const]]|apply D_minus; [apply D_const|exact H]|lra].
  - cbv beta. field. lra.
Qed.
Definition hc_cpos (p : hcp) (f : R) : Prop := forall i, (i < hp_n p)%nat -> 0 < hp_c p f i.
Lemma D_hc_Gv p (f : R -> R) t v : hc_phys p -> is_derive f t v -> f t <> 1 -> hc_cpos p (f t) -> is_derive (fun u => hp_Gv p (f u)) t (hp_dG p (f t) * v).
Proof.
  intros Hp H Hf Hc. unfold hp_Gv, hp_dG.
  assert (P : 0 < rprod (hp_n p) (hp_c p (f t))) by (apply rprod_pos; exact Hc).
  assert (Q : 0 < rprod (hp_n p) (hp_ceq p)) by (apply rprod_pos; intros i Hi; destruct (hy_c p Hp i Hi); lra).
  pose proof (D_rprod (hp_n p) (fun u => hp_c p (f u)) t (fun i => hp_dc p (f t) i * v) (fun i _ => D_hc_c p i f t v H Hf)) as HD.
  assert (E : rsum (hp_n p) (fun i => rprod (hp_n p) (fun j => if Nat.eqb i j then hp_dc p (f t) j * v else hp_c p (f t) j)) =
              rsum (hp_n p) (fun i => rprod (hp_n p) (fun j => if Nat.eqb i j then hp_dc p (f t) j else hp_c p (f t) j)) * v).
  { rewrite <- rsum_scal_r. apply rsum_ext. intros i Hi. clear HD P Q. revert Hi.
    assert (K : forall m, (m <= i)%nat -> rprod m (fun j => if Nat.eqb i j then hp_dc p (f t) j * v else hp_c p (f t) j) = rprod m (fun j => if Nat.eqb i j then hp_dc p (f t) j else hp_c p (f t) j)).
    { intros m Hm. apply rprod_ext. intros j Hj. destruct (Nat.eqb_spec i j); [lia|reflexivity]. }
    generalize (hp_n p). induction n as [|n IH]; intros Hi; [lia|]. cbn [rprod].
    destruct (Nat.eqb_spec i n) as [->|Hne]; [rewrite K by lia; ring|rewrite IH by lia; ring]. }
  cbv beta in HD. apply (fun X => D_eq _ _ _ _ X E) in HD.
  set (S := rsum (hp_n p) _) in *. clearbody S.
  eapply D_eq.
  - apply D_mult; [apply D_const|]. apply D_ln.
    + apply D_div; [exact HD|apply D_const|lra].
    + apply Rdiv_lt_0_compat; assumption.
  - cbv beta. field. pose proof (hc_vm_pos p Hp). repeat split; lra.
Qed.

(** *** Nucleation and ripening *)
Lemma D_hc_Nn p (f : R -> R) t v : hc_phys p -> is_derive f t v -> f t <> 1 -> hc_cpos p (f t) -> hp_Gv p (f t) <> 0 ->
  is_derive (fun u => hp_Nn p (f u)) t (hp_Nn_f p (f t) * v).
Proof.
  intros Hp H Hf Hc HG. destruct (hy_pos p Hp) as (?&?&?&?&?&?&?&?&?&?).
  pose proof (D_hc_Gv p f t v Hp H Hf Hc) as DG. pose proof (D_hc_c p (hp_rate p) f t v H Hf) as DC.
  assert (DS : is_derive (fun u => hp_Gs p (hp_Gv p (f u))) t (hp_dGs p (hp_Gv p (f t)) (hp_dG p (f t)) * v)).
  { unfold hp_Gs, hp_dGs. eapply D_ext; [intros u; cbn [pow]; reflexivity|]. eapply D_eq.
    - apply D_mult; [|apply D_const]. apply D_div; [apply D_const| |].
      + apply D_mult; [apply D_const|]. apply D_mult; [exact DG|]. apply D_mult; [exact DG|apply D_const].
      + cbv beta. apply Rmult_integral_contrapositive_currified; [lra|]. rewrite Rmult_1_r. apply Rmult_integral_contrapositive_currified; assumption.
    - cbv beta. field. exact HG. }
  unfold hp_Nn, hp_Nn_f, hp_ZB.
  eapply D_eq.
  - apply D_mult.
    + apply D_mult; [apply D_const|]. apply D_mult; [|apply D_const]. apply D_div; [|apply D_const|].
      * apply D_mult; [apply D_const|exact DC].
      * apply pow_nonzero. lra.
    + apply D_exp. apply D_div; [apply D_opp; exact DS|apply D_const|]. apply Rmult_integral_contrapositive_currified; lra.
  - cbv beta. field. repeat split; lra.
Qed.
Lemma D_hc_rc p (f : R -> R) t v : hc_phys p -> is_derive f t v -> f t <> 1 -> hc_cpos p (f t) -> hp_Gv p (f t) <> 0 ->
  is_derive (fun u => hp_rc p (f u)) t (2 * hp_chi p / (hp_Gv p (f t) * hp_Gv p (f t)) * hp_dG p (f t) * v).
Proof.
  intros Hp H Hf Hc HG. unfold hp_rc. eapply D_eq; [apply D_div; [apply D_const|apply (D_hc_Gv p f t v Hp H Hf Hc)|exact HG]|].
  cbv beta. field. exact HG.
Qed.
Lemma hc_over_pos p : hc_phys p -> 0 < hp_over p.
Proof. intros H. destruct (hy_c p H (hp_rate p) (hy_n p H)). unfold hp_over. lra. Qed.
Lemma D_hc_rn p (f r N : R -> R) t vf vr vN : hc_phys p -> is_derive f t vf -> is_derive r t vr -> is_derive N t vN ->
  f t <> 1 -> hc_cpos p (f t) -> hp_Gv p (f t) <> 0 -> r t <> 0 -> N t <> 0 ->
  is_derive (fun u => hp_rn p (f u) (r u) (N u)) t (hp_rn_f p (f t) (r t) (N t) * vf + hp_rn_r p (f t) (r t) (N t) * vr + hp_rn_N p (f t) (r t) (N t) * vN).
Proof.
  intros Hp H Hr HN Hf Hc HG Hr0 HN0. pose proof (hc_over_pos p Hp).
  unfold hp_rn, hp_rn_f, hp_rn_r, hp_rn_N. eapply D_eq.
  - apply D_plus.
    + apply D_div; [|apply D_const|lra]. apply D_mult; [apply D_div; [apply D_const|exact Hr|exact Hr0]|].
      apply D_minus; [apply (D_hc_c p _ f t vf H Hf)|apply D_const].
    + apply D_mult; [apply D_div; [apply (D_hc_Nn p f t vf); assumption|exact HN|exact HN0]|].
      apply D_minus; [apply (D_hc_rc p f t vf); assumption|exact Hr].
  - cbv beta. field. repeat split; try assumption; lra.
Qed.
Lemma D_hc_rr p (f r : R -> R) t vf vr : hc_phys p -> is_derive f t vf -> is_derive r t vr -> f t <> 1 -> r t <> 0 ->
  is_derive (fun u => hp_rr p (f u) (r u)) t (hp_rr_f p (f t) (r t) * vf + hp_rr_r p (f t) (r t) * vr).
Proof.
  intros Hp H Hr Hf Hr0. destruct (hy_pos p Hp) as (?&?&?&?&?&?&?&?&?&?).
  unfold hp_rr, hp_rr_f, hp_rr_r, hp_K. eapply D_ext; [intros u; cbn [pow]; reflexivity|]. eapply D_eq.
  - apply D_div.
    + apply D_div; [apply D_mult; [apply D_const|apply (D_hc_c p _ f t vf H Hf)]|apply D_const|].
      apply Rmult_integral_contrapositive_currified; [|lra]. apply Rmult_integral_contrapositive_currified; lra.
    + apply D_mult; [apply D_const|]. apply D_mult; [exact Hr|apply D_mult; [exact Hr|apply D_const]].
    + cbv beta. apply Rmult_integral_contrapositive_currified; [lra|]. rewrite Rmult_1_r. apply Rmult_integral_contrapositive_currified; assumption.
  - cbv beta. field. repeat split; try assumption; lra.
Qed.
Lemma D_hc_Nr p (f r N : R -> R) t vf vr vN : hc_phys p -> is_derive f t vf -> is_derive r t vr -> is_derive N t vN -> f t <> 1 -> r t <> 0 ->
  is_derive (fun u => hp_Nr p (f u) (r u) (N u)) t (hp_Nr_f p (f t) (r t) (N t) * vf + hp_Nr_r p (f t) (r t) (N t) * vr + hp_Nr_N p (f t) (r t) (N t) * vN).
Proof.
  intros Hp H Hr HN Hf Hr0. unfold hp_Nr, hp_Nr_f, hp_Nr_r, hp_Nr_N. eapply D_eq.
  - apply D_mult; [apply D_div; [apply D_mult; [apply D_const|exact HN]|exact Hr|exact Hr0]|apply (D_hc_rr p f r t vf vr); assumption].
  - cbv beta. field. exact Hr0.
Qed.
