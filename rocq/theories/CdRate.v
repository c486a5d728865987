(** Proofs about crystal damage: damage rates. *)
From Verif Require Import Base.
From Verif Require Import Diff.
From Verif Require Import NemlMathModel.
From Verif Require Import NemlMathSpec.
From Verif Require Import NemlMathProofs.
From Verif Require Import RotModel.
From Verif Require Import TensorModel.
From Verif Require Import SlipModel.
From Verif Require Import SlipSpec.
From Verif Require Import SlipProofs.
From Verif Require Import SlipWhole.
From Verif Require Import MatInv.
From Verif Require Import CpModel.
From Verif Require Import CpProofs.
From Verif Require Import CdModel.
From Verif Require Import CdSpec.
From Verif Require Import CdProofs.
From Coq Require Import List.

Lemma work_exact : pdamage_exact work_damage.
Proof.
  intros m tau g ns d t tau' g' n' d' Ht Hg Hn Hd. cbn.
  eapply D_eq; [apply (D_rsum m (fun u k => tau u k * g u k)); intros k Hk; apply D_mult; [apply Ht; exact Hk|apply Hg; exact Hk]|].
  cbv beta. rewrite rsum_plus. rewrite (rsum_ext m (fun i => tau' i * g t i) (fun k => g t k * tau' k)) by (intros; ring). ring.
Qed.
Lemma tnormal_dy s n : tnormal s n = rsum 6 (fun c => mk_symmetric (outer3 n n) c * s c).
Proof. cbn [rsum]. change (mk_symmetric (outer3 n n)) with (dy n n). rewrite !dy_table by lia. rewrite tnormal_sum, !traction_table by lia. field. Qed.
Lemma planar_rates L r pl q sh no Ps Ph : pdamage_exact q -> scalar_exact r Ps -> (forall k, (k < r_n r)%nat -> strength_exact L (r_str r k) (Ph k)) ->
  (forall i, (i < p_n pl)%nat -> Forall (fun p => (p < l_n L)%nat) (p_sys pl i)) ->
  damage_rate_exact (r_nh r) (planar L r pl q sh no) (fun s h _ => slip_in L r Ps Ph s h).
Proof.
  intros HQ HP HS HL s h d t s' h' d' Hs Hh Hd Hin i Hi. cbn [planar cd_n cd_rate cd_rate_s cd_rate_i cd_rate_d] in *.
  pose proof (slip_whole L r Ps Ph HP HS s h t s' h' Hs Hh Hin) as W.
  set (m := length (p_sys pl i)). set (pp := fun k => nth k (p_sys pl i) 0%nat).
  assert (Hp : forall k, (k < m)%nat -> (pp k < l_n L)%nat). { intros k Hk. pose proof (HL i Hi) as F. rewrite Forall_forall in F. apply F. apply nth_In. exact Hk. }
  assert (P1 : path m (fun u => pd_tau L pl (s u) i) t (fun k => rsum 6 (fun c => l_M L (pp k) c * s' c))).
  { intros k Hk. unfold pd_tau, rs_tau, sym_contract. fold (pp k). apply (D_rsum 6 (fun u c => l_M L (pp k) c * s u c)). intros c Hc. eapply D_eq; [apply D_mult; [apply D_const|apply Hs; exact Hc]|cbv beta; ring]. }
  assert (P2 : path m (fun u => pd_gam L r pl (s u) (h u) i) t (fun k => mv 6 (rs_dslip_s L r (s t) (h t)) s' (pp k) + mv (r_nh r) (rs_dslip_h L r (s t) (h t)) h' (pp k))).
  { intros k Hk. unfold pd_gam. fold (pp k). apply (W (pp k) (Hp k Hk)). }
  pose proof (HQ m _ _ _ _ t _ _ _ _ P1 P2 (D_traction s t s' (p_normal pl i) Hs) (Hd i Hi)) as D. cbv beta in D.
  eapply D_eq; [exact D|]. cbv beta zeta. unfold mv. fold m.
  change (normal_stress ?x ?y) with (tnormal x y).
  set (tau := pd_tau L pl (s t) i) in *. set (g := pd_gam L r pl (s t) (h t) i) in *. set (ns := tnormal (s t) (p_normal pl i)) in *.
  set (A := q_dshear q m tau g ns (d t i)) in *. set (B := q_dslip q m tau g ns (d t i)) in *.
  rewrite (rsum_ext 6 (fun j => (_ + _) * s' j) (fun c => q_dnormal q m tau g ns (d t i) * (mk_symmetric (outer3 (p_normal pl i) (p_normal pl i)) c * s' c)
     + (rsum m (fun k => A k * l_M L (pp k) c * s' c) + rsum m (fun k => B k * rs_dslip_s L r (s t) (h t) (pp k) c * s' c)))).
  2:{ intros c _. rewrite <- rsum_plus. rewrite Rmult_plus_distr_r. f_equal; [ring|]. rewrite <- rsum_scal_r. apply rsum_ext. intros k _. unfold pp. ring. }
  rewrite rsum_plus, rsum_scal, <- tnormal_dy. rewrite rsum_plus.
  rewrite (rsum_swap 6 m (fun c k => A k * l_M L (pp k) c * s' c)), (rsum_swap 6 m (fun c k => B k * rs_dslip_s L r (s t) (h t) (pp k) c * s' c)).
  rewrite (rsum_ext (r_nh r) _ (fun x => rsum m (fun k => B k * rs_dslip_h L r (s t) (h t) (pp k) x * h' x))) by (intros x _; rewrite <- rsum_scal_r; reflexivity).
  rewrite (rsum_swap (r_nh r) m).
  rewrite (rsum_ext (p_n pl) _ (fun j => delta i j * (q_ddamage q m tau g ns (d t i) * d' j))) by (intros j _; unfold delta; destruct (Nat.eqb i j); ring).
  rewrite (rsum_delta (p_n pl) i (fun j => q_ddamage q m tau g ns (d t i) * d' j) Hi).
  rewrite (rsum_ext m (fun k => A k * _) (fun k => rsum 6 (fun c => A k * l_M L (pp k) c * s' c))) by (intros k _; rewrite <- rsum_scal; apply rsum_ext; intros; ring).
  rewrite (rsum_ext m (fun k => B k * _) (fun k => rsum 6 (fun c => B k * rs_dslip_s L r (s t) (h t) (pp k) c * s' c) + rsum (r_nh r) (fun x => B k * rs_dslip_h L r (s t) (h t) (pp k) x * h' x))).
  2:{ intros k _. rewrite Rmult_plus_distr_l. f_equal; rewrite <- rsum_scal; apply rsum_ext; intros; ring. }
  rewrite rsum_plus. ring.
Qed.
Lemma nil_exact : projection_exact nil_damage (fun _ _ => True) /\ (forall ni, damage_rate_exact ni nil_damage (fun _ _ _ => True)) /\ stays_invertible nil_damage (fun _ _ => True).
Proof.
  split; [|split].
  - intros s d t s' d' _ _ _ i j Hi Hj. cbn. eapply D_eq; [apply D_const|]. ring.
  - intros ni s h d t s' h' d' _ _ _ _ i Hi. cbn. eapply D_eq; [apply D_const|]. rewrite !(CpProofs.mv_zero) by (intros; reflexivity). ring.
  - intros s d t s' d' _ _ _. exists (mkposreal 1 Rlt_0_1). intros u _. exists delta. intros i j Hi Hj. cbn. split; apply (MatInv.mm_id_l 6 delta delta i j); auto.
Qed.
(** damage grows as long as slip dissipates *)
Lemma work_growth L r pl sh no s h d i : Forall (fun p => 0 <= rs_tau L s p * rs_slip L r s h p) (p_sys pl i) ->
  0 <= cd_rate (planar L r pl work_damage sh no) s h d i.
Proof.
  intros F. cbn. assert (G : forall l, Forall (fun p => 0 <= rs_tau L s p * rs_slip L r s h p) l -> 0 <= rsum (length l) (fun k => rs_tau L s (nth k l 0%nat) * rs_slip L r s h (nth k l 0%nat))).
  { intros l HF. apply rsum_nonneg. intros k Hk. rewrite Forall_forall in HF. apply (HF (nth k l 0%nat)). apply nth_In. exact Hk. }
  apply (G (p_sys pl i) F).
Qed.
