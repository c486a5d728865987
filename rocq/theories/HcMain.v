(** The switch between nucleation and ripening, the Jacobian and whole histories. *)
From Verif Require Import Base Diff.
From Verif Require Import HcModel HcSpec SlipProofs HcProofs.
From Coq Require Import Lia Lra.

Definition hc_k (p : hcp) (i : nat) : R := (hp_cp p i - hp_c0 p i) / (hp_c0 p i - hp_ceq p i).
Fixpoint hc_max (p : hcp) (n : nat) : R := match n with O => 0 | S i => if Rlt_dec (hc_max p i) (hc_k p i) then hc_k p i else hc_max p i end.
Lemma hc_k_pos p i : hc_phys p -> (i < hp_n p)%nat -> 0 < hc_k p i.
Proof. intros H Hi. destruct (hy_c p H i Hi). apply Rdiv_lt_0_compat; lra. Qed.
Lemma hc_x_k p f i : hc_phys p -> (i < hp_n p)%nat -> f <> 1 -> hp_x p f i = f / (1 - f) * hc_k p i.
Proof. intros H Hi Hf. destruct (hy_c p H i Hi). unfold hp_x, hc_k, hp_c. field. repeat split; lra. Qed.
Lemma hc_dx_k p f i : hc_phys p -> (i < hp_n p)%nat -> f <> 1 -> hp_dc p f i / (hp_ceq p i - hp_c0 p i) = hc_k p i / (1 - f) ^ 2.
Proof. intros H Hi Hf. destruct (hy_c p H i Hi). unfold hc_k, hp_dc. field. repeat split; lra. Qed.
Lemma hc_max_pos p n : hc_phys p -> (n <= hp_n p)%nat -> (0 < n)%nat -> 0 < hc_max p n.
Proof.
  intros H. induction n as [|n IH]; intros Hn Hpos; [lia|]. cbn.
  destruct (Rlt_dec (hc_max p n) (hc_k p n)) as [Hlt|Hge]; [apply hc_k_pos; [assumption|lia]|].
  pose proof (hc_k_pos p n H ltac:(lia)). lra.
Qed.
Lemma hc_max_ge p n i : (i < n)%nat -> hc_k p i <= hc_max p n.
Proof.
  induction n as [|n IH]; intros Hi; [lia|]. cbn. destruct (Nat.eq_dec i n) as [->|Hne].
  - destruct (Rlt_dec (hc_max p n) (hc_k p n)); lra.
  - pose proof (IH ltac:(lia)). destruct (Rlt_dec (hc_max p n) (hc_k p n)); lra.
Qed.
Lemma hc_max_at p n : hc_phys p -> (n <= hp_n p)%nat -> (0 < n)%nat -> exists i, (i < n)%nat /\ hc_max p n = hc_k p i.
Proof.
  intros H. induction n as [|n IH]; intros Hn Hpos; [lia|]. cbn.
  destruct (Rlt_dec (hc_max p n) (hc_k p n)) as [Hlt|Hge]; [exists n; split; [lia|reflexivity]|].
  destruct n as [|n]; [cbn in Hge; pose proof (hc_k_pos p 0%nat H ltac:(lia)); lra|].
  destruct (IH ltac:(lia) ltac:(lia)) as (i & Hi & E). exists i. split; [lia|exact E].
Qed.
Lemma hc_scan p j f n : hc_phys p -> 0 < f < 1 -> (n <= hp_n p)%nat ->
  fst (hp_scan p j f n) = f / (1 - f) * hc_max p n /\ ((0 < n)%nat -> snd (hp_scan p j f n) = hc_max p n / (1 - f) ^ 2).
Proof.
  intros H Hf. assert (G : 0 < f / (1 - f)) by (apply Rdiv_lt_0_compat; lra).
  induction n as [|n IH]; intros Hn; [cbn; split; [ring|lia]|].
  destruct (IH ltac:(lia)) as [E1 E2]. cbn [hp_scan hc_max]. cbv zeta.
  rewrite E1, (hc_x_k p f n H) by (lia || lra). rewrite (hc_dx_k p f n H) by (lia || lra).
  destruct (Rlt_dec (hc_max p n) (hc_k p n)) as [Hlt|Hge]; destruct (Rlt_dec (f / (1 - f) * hc_max p n) (f / (1 - f) * hc_k p n)) as [Hlt'|Hge'].
  - cbn. split; reflexivity.
  - exfalso. apply Hge'. apply Rmult_lt_compat_l; assumption.
  - exfalso. apply Rmult_lt_reg_l in Hlt'; lra.
  - split; [exact E1|]. intros _. destruct n as [|n]; [|apply E2; lia].
    cbn in Hge. pose proof (hc_k_pos p 0%nat H ltac:(lia)). lra.
Qed.
Lemma hc_n_pos p : hc_phys p -> (0 < hp_n p)%nat.
Proof. intros H. pose proof (hy_n p H). lia. Qed.
Lemma hc_switch_val p j f : hc_phys p -> 0 < f < 1 ->
  hp_switch p j f = if Rlt_dec 1 (f / (1 - f) * hc_max p (hp_n p)) then (1, 0) else (f / (1 - f) * hc_max p (hp_n p), hc_max p (hp_n p) / (1 - f) ^ 2).
Proof.
  intros H Hf. destruct (hc_scan p j f (hp_n p) H Hf ltac:(lia)) as [E1 E2]. specialize (E2 (hc_n_pos p H)).
  assert (0 < f / (1 - f) * hc_max p (hp_n p)).
  { apply Rmult_lt_0_compat; [apply Rdiv_lt_0_compat; lra|apply hc_max_pos; [assumption|lia|apply hc_n_pos; assumption]]. }
  unfold hp_switch. cbv zeta. destruct (hp_scan p j f (hp_n p)) as [a b]. cbn [fst snd] in *. subst a b.
  destruct (Rlt_dec (f / (1 - f) * hc_max p (hp_n p)) 0); [lra|]. cbn [fst]. reflexivity.
Qed.
Lemma hc_x_ge1 p f i : hc_phys p -> (i < hp_n p)%nat -> 0 < f < 1 -> (1 <= f / (1 - f) * hc_k p i <-> hp_c p f i <= hp_ceq p i).
Proof.
  intros H Hi Hf. destruct (hy_c p H i Hi). rewrite <- (hc_x_k p f i H Hi) by lra. unfold hp_x.
  replace ((hp_c p f i - hp_c0 p i) / (hp_ceq p i - hp_c0 p i)) with ((hp_c0 p i - hp_c p f i) * / (hp_c0 p i - hp_ceq p i)) by (field; lra).
  assert (P : 0 < hp_c0 p i - hp_ceq p i) by lra. split; intros G.
  - apply (Rmult_le_compat_r (hp_c0 p i - hp_ceq p i)) in G; [|lra]. rewrite Rmult_assoc, Rinv_l in G by lra. lra.
  - apply (Rmult_le_reg_r (hp_c0 p i - hp_ceq p i)); [lra|]. rewrite Rmult_assoc, Rinv_l by lra. lra.
Qed.
Lemma hc_switch_range p f : hc_phys p -> 0 < f < 1 -> 0 < hc_switch p f <= 1.
Proof.
  intros H Hf. unfold hc_switch. rewrite hc_switch_val by assumption.
  assert (0 < f / (1 - f) * hc_max p (hp_n p)).
  { apply Rmult_lt_0_compat; [apply Rdiv_lt_0_compat; lra|apply hc_max_pos; [assumption|lia|apply hc_n_pos; assumption]]. }
  destruct (Rlt_dec 1 _); cbn; lra.
Qed.
Lemma hc_switch_one p f : hc_phys p -> 0 < f < 1 -> (hc_switch p f = 1 <-> exists i, (i < hp_n p)%nat /\ hp_c p f i <= hp_ceq p i).
Proof.
  intros H Hf. assert (G : 0 < f / (1 - f)) by (apply Rdiv_lt_0_compat; lra). unfold hc_switch. rewrite hc_switch_val by assumption. split.
  - intros E. destruct (hc_max_at p (hp_n p) H ltac:(lia) (hc_n_pos p H)) as (i & Hi & Em). exists i. split; [exact Hi|].
    apply (hc_x_ge1 p f i H Hi Hf). rewrite <- Em. destruct (Rlt_dec 1 _); cbn in E; lra.
  - intros (i & Hi & Hc). apply (hc_x_ge1 p f i H Hi Hf) in Hc. pose proof (hc_max_ge p (hp_n p) i Hi).
    assert (f / (1 - f) * hc_k p i <= f / (1 - f) * hc_max p (hp_n p)) by (apply Rmult_le_compat_l; lra).
    destruct (Rlt_dec 1 _); cbn; lra.
Qed.
Lemma hc_ceq_feq p f i : hc_phys p -> (i < hp_n p)%nat -> 0 < f < 1 -> (hp_c p f i <= hp_ceq p i <-> hc_feq p i <= f).
Proof.
  intros H Hi Hf. destruct (hy_c p H i Hi) as [[A B] C]. unfold hp_c, hc_feq.
  split; intros G.
  - apply (Rmult_le_compat_r (1 - f)) in G; [|lra]. unfold Rdiv in G. rewrite Rmult_assoc, Rinv_l in G by lra.
    apply (Rmult_le_reg_r (hp_cp p i - hp_ceq p i)); [lra|]. unfold Rdiv. rewrite Rmult_assoc, Rinv_l by lra. lra.
  - apply (Rmult_le_compat_r (hp_cp p i - hp_ceq p i)) in G; [|lra]. unfold Rdiv in G. rewrite Rmult_assoc, Rinv_l in G by lra.
    apply (Rmult_le_reg_r (1 - f)); [lra|]. unfold Rdiv. rewrite Rmult_assoc, Rinv_l by lra. lra.
Qed.
Lemma D_hc_switch p j (f : R -> R) t v : hc_phys p -> is_derive f t v -> 0 < f t < 1 -> (forall i, (i < hp_n p)%nat -> hp_c p (f t) i <> hp_ceq p i) ->
  is_derive (fun u => hc_switch p (f u)) t (snd (hp_switch p j (f t)) * v).
Proof.
  intros H Hd Hf Hne. set (M := hc_max p (hp_n p)).
  assert (DG : is_derive (fun u => f u / (1 - f u) * M) t (M / (1 - f t) ^ 2 * v)).
  { eapply D_eq; [apply D_mult; [apply D_div; [exact Hd|apply D_minus; [apply D_const|exact Hd]|lra]|apply D_const]|cbv beta; field; lra]. }
  assert (N1 : f t / (1 - f t) * M <> 1).
  { intros E. destruct (hc_max_at p (hp_n p) H ltac:(lia) (hc_n_pos p H)) as (i & Hi & Em). fold M in Em.
    apply (Hne i Hi). destruct (hy_c p H i Hi). rewrite Em in E. rewrite <- (hc_x_k p (f t) i H Hi) in E by lra. unfold hp_x in E.
    apply (f_equal (fun x => x * (hp_ceq p i - hp_c0 p i))) in E. unfold Rdiv in E. rewrite Rmult_assoc, Rinv_l in E by lra. lra. }
  assert (LF : locally t (fun u => 0 < f u < 1)).
  { apply filter_and; [apply (loc_gt f t v 0 Hd); lra|apply (loc_lt f t v 1 Hd); lra]. }
  rewrite hc_switch_val by assumption. fold M.
  destruct (Rlt_dec 1 (f t / (1 - f t) * M)) as [Hgt|Hle].
  - eapply (D_loc (fun _ => 1)).
    + eapply filter_imp; [|apply (filter_and _ _ LF (loc_gt _ t _ 1 DG Hgt))]. intros u [Hu1 Hu2]. cbv beta in Hu2.
      unfold hc_switch. rewrite hc_switch_val by assumption. fold M. destruct (Rlt_dec 1 _); [reflexivity|lra].
    + cbn. rewrite Rmult_0_l. apply D_const.
  - eapply (D_loc (fun u => f u / (1 - f u) * M)).
    + eapply filter_imp; [|apply (filter_and _ _ LF (loc_lt _ t _ 1 DG ltac:(lra)))]. intros u [Hu1 Hu2]. cbv beta in Hu2.
      unfold hc_switch. rewrite hc_switch_val by assumption. fold M. destruct (Rlt_dec 1 _); [lra|reflexivity].
    + exact DG.
Qed.
Lemma hp_switch_fst p j f : fst (hp_switch p j f) = hc_switch p f.
Proof.
  unfold hc_switch, hp_switch. cbv zeta. assert (E : forall n, fst (hp_scan p j f n) = fst (hp_scan p 0 f n)).
  { induction n as [|n IH]; [reflexivity|]. cbn. rewrite IH. destruct (Rlt_dec _ _); [reflexivity|exact IH]. }
  specialize (E (hp_n p)). destruct (hp_scan p j f (hp_n p)) as [a b], (hp_scan p 0 f (hp_n p)) as [a' b']. cbn in *. subst a'.
  destruct (Rlt_dec a 0); cbn; destruct (Rlt_dec 1 _); reflexivity.
Qed.

(** *** The Jacobian *)
Lemma D_hc_rrate p j (f r N : R -> R) t vf vr vN : hc_phys p -> is_derive f t vf -> is_derive r t vr -> is_derive N t vN ->
  0 < f t < 1 -> r t <> 0 -> N t <> 0 -> hp_Gv p (f t) <> 0 -> (forall i, (i < hp_n p)%nat -> 0 < hp_c p (f t) i /\ hp_c p (f t) i <> hp_ceq p i) ->
  is_derive (fun u => hp_rrate p (f u) (r u) (N u)) t (hp_r_f p j (f t) (r t) (N t) * vf + hp_r_r p (f t) (r t) (N t) * vr + hp_r_N p (f t) (r t) (N t) * vN) /\
  is_derive (fun u => hp_Nrate p (f u) (r u) (N u)) t (hp_N_f p j (f t) (r t) (N t) * vf + hp_N_r p (f t) (r t) (N t) * vr + hp_N_N p (f t) (r t) (N t) * vN).
Proof.
  intros H Hf Hr HN Hf1 Hr0 HN0 HG Hc. assert (Hc1 : hc_cpos p (f t)) by (intros i Hi; apply Hc; assumption). assert (Hf2 : f t <> 1) by lra.
  pose proof (D_hc_switch p j f t vf H Hf Hf1 (fun i Hi => proj2 (Hc i Hi))) as DS.
  pose proof (D_hc_rn p f r N t vf vr vN H Hf Hr HN Hf2 Hc1 HG Hr0 HN0) as Drn.
  pose proof (D_hc_rr p f r t vf vr H Hf Hr Hf2 Hr0) as Drr.
  pose proof (D_hc_Nr p f r N t vf vr vN H Hf Hr HN Hf2 Hr0) as DNr.
  pose proof (D_hc_Nn p f t vf H Hf Hf2 Hc1 HG) as DNn.
  assert (E : fst (hp_switch p j (f t)) = hc_switch p (f t)) by apply hp_switch_fst.
  unfold hp_rrate, hp_Nrate, hp_r_f, hp_N_f, hp_r_r, hp_r_N, hp_N_r, hp_N_N. cbv zeta.
  fold (hc_switch p (f t)). destruct (hp_switch p j (f t)) as [s ds]. cbn [fst snd] in *. subst s.
  split.
  - eapply D_eq; [apply D_plus; [apply D_mult; [apply D_minus; [apply D_const|exact DS]|exact Drn]|apply D_mult; [exact DS|exact Drr]]|cbv beta; unfold hc_switch; ring].
  - eapply D_eq; [apply D_plus; [apply D_mult; [apply D_minus; [apply D_const|exact DS]|exact DNn]|apply D_mult; [exact DS|exact DNr]]|cbv beta; unfold hc_switch; ring].
Qed.
Lemma hc_jacobian p j : hc_phys p -> is_jac 3 3 (hc_reg p) (hp_rates p) (hp_jac p j).
Proof.
  intros H c t v Hc HP. destruct HP as (Hf1 & Hr0 & HN0 & HG & Hcc). destruct (hy_scale p H) as (S1 & S2 & S3).
  assert (Hf : is_derive (fun u => hp_f p (c u)) t (v 0%nat * hp_fs p)) by (unfold hp_f; eapply D_eq; [apply D_mult; [apply (Hc 0%nat); lia|apply D_const]|cbv beta; ring]).
  assert (Hr : is_derive (fun u => hp_r p (c u)) t (v 1%nat * hp_rs p)) by (unfold hp_r; eapply D_eq; [apply D_mult; [apply (Hc 1%nat); lia|apply D_const]|cbv beta; ring]).
  assert (HN : is_derive (fun u => hp_N p (c u)) t (v 2%nat * hp_Ns p)) by (unfold hp_N; eapply D_eq; [apply D_mult; [apply (Hc 2%nat); lia|apply D_const]|cbv beta; ring]).
  destruct (D_hc_rrate p j _ _ _ t _ _ _ H Hf Hr HN Hf1 Hr0 HN0 HG Hcc) as [Dr DN].
  intros i Hi. unfold mv. cbn [rsum]. unfold hp_rates, hp_jac. cbv zeta.
  destruct i as [|[|[|i]]]; [| | |lia]; cbv iota.
  - unfold hp_frate, hp_f_f, hp_f_r, hp_f_N. eapply D_ext; [intros u; cbn [pow]; reflexivity|]. eapply D_eq.
    + apply D_div; [|apply D_const|exact S1]. apply D_mult; [apply D_const|]. apply D_plus.
      * apply D_mult; [exact DN|]. apply D_mult; [exact Hr|]. apply D_mult; [exact Hr|]. apply D_mult; [exact Hr|apply D_const].
      * apply D_mult; [|exact Dr]. apply D_mult; [apply D_mult; [exact HN|apply D_const]|]. apply D_mult; [exact Hr|]. apply D_mult; [exact Hr|apply D_const].
    + cbv beta. field. exact S1.
  - eapply D_eq; [apply D_div; [exact Dr|apply D_const|exact S2]|cbv beta; field; exact S2].
  - eapply D_eq; [apply D_div; [exact DN|apply D_const|exact S3]|cbv beta; field; exact S3].
Qed.

(** *** Whole histories *)
Lemma hc_frate_zero p f r N : hc_switch p f = 1 -> r <> 0 -> hp_frate p f r N = 0.
Proof. intros E Hr. unfold hp_frate, hp_rrate, hp_Nrate, hp_Nr. cbv zeta. fold (hc_switch p f). rewrite E. field. exact Hr. Qed.
Lemma hc_paths p (h : R -> vec) t : hc_phys p -> path 3 h t (hp_rates p (h t)) ->
  is_derive (fun u => hp_f p (h u)) t (hp_frate p (hp_f p (h t)) (hp_r p (h t)) (hp_N p (h t))) /\
  is_derive (fun u => hp_r p (h u)) t (hp_rrate p (hp_f p (h t)) (hp_r p (h t)) (hp_N p (h t))) /\
  is_derive (fun u => hp_N p (h u)) t (hp_Nrate p (hp_f p (h t)) (hp_r p (h t)) (hp_N p (h t))).
Proof.
  intros H Hp. destruct (hy_scale p H) as (S1 & S2 & S3).
  split; [|split].
  - eapply D_eq; [apply (D_ext (fun u => h u 0%nat * hp_fs p)); [reflexivity|]; apply D_mult; [apply (Hp 0%nat); lia|apply D_const]|cbv beta; unfold hp_rates; cbv zeta; cbv iota; field; exact S1].
  - eapply D_eq; [apply (D_ext (fun u => h u 1%nat * hp_rs p)); [reflexivity|]; apply D_mult; [apply (Hp 1%nat); lia|apply D_const]|cbv beta; unfold hp_rates; cbv zeta; cbv iota; field; exact S2].
  - eapply D_eq; [apply (D_ext (fun u => h u 2%nat * hp_Ns p)); [reflexivity|]; apply D_mult; [apply (Hp 2%nat); lia|apply D_const]|cbv beta; unfold hp_rates; cbv zeta; cbv iota; field; exact S3].
Qed.
Lemma const_of_zero (g : R -> R) a b t : (forall u, a <= u <= b -> is_derive g u 0) -> a <= t <= b -> g t = g a.
Proof.
  intros H Ht. destruct (Req_dec a t) as [->|Hne]; [reflexivity|]. symmetry.
  apply (eq_is_derive (V := R_NormedModule) g a t); [intros u Hu; apply H; lra|lra].
Qed.
(** Volume fraction, radius and number density stay consistent. *)
Lemma hc_volume p h a b t : hc_phys p -> hc_history p h a b -> a <= t <= b ->
  hp_f p (h t) - 4 * PI / 3 * hp_r p (h t) ^ 3 * hp_N p (h t) = hp_f p (h a) - 4 * PI / 3 * hp_r p (h a) ^ 3 * hp_N p (h a).
Proof.
  intros H Hh Ht. apply (const_of_zero (fun u => hp_f p (h u) - 4 * PI / 3 * hp_r p (h u) ^ 3 * hp_N p (h u)) a b t); [|exact Ht].
  intros u Hu. destruct (Hh u Hu) as (Hp & _ & _). destruct (hc_paths p h u H Hp) as (Df & Dr & DN).
  eapply D_ext; [intros w; cbn [pow]; reflexivity|]. eapply D_eq.
  - apply D_minus; [exact Df|]. apply D_mult; [|exact DN]. apply D_mult; [apply D_const|].
    apply D_mult; [exact Dr|]. apply D_mult; [exact Dr|]. apply D_mult; [exact Dr|apply D_const].
  - cbv beta. unfold hp_frate. field.
Qed.
(** No species is driven below equilibrium. *)
Lemma hc_no_overshoot p h a b i : hc_phys p -> hc_history p h a b -> (i < hp_n p)%nat -> hp_ceq p i <= hp_c p (hp_f p (h a)) i ->
  (forall j, (j < hp_n p)%nat -> hc_feq p i <= hc_feq p j) ->
  forall t j, a <= t <= b -> (j < hp_n p)%nat -> hp_ceq p j <= hp_c p (hp_f p (h t)) j.
Proof.
  intros H Hh Hi H0 Hmin t j Ht Hj.
  assert (Eq : forall k f, (k < hp_n p)%nat -> 0 < f < 1 -> f <= hc_feq p k -> hp_ceq p k <= hp_c p f k).
  { intros k f Hk Hf Hle. destruct (Rle_lt_dec (hp_ceq p k) (hp_c p f k)) as [G|G]; [exact G|].
    pose proof (proj1 (hc_ceq_feq p f k H Hk Hf) (Rlt_le _ _ G)) as E. assert (E' : f = hc_feq p k) by lra.
    destruct (hy_c p H k Hk) as [[A B] C]. assert (hp_c p f k = hp_ceq p k).
    { rewrite E'. unfold hp_c, hc_feq. field. split; lra. } lra. }
  assert (Le : hp_f p (h a) <= hc_feq p i).
  { destruct (Hh a ltac:(lra)) as (_ & Hf & _). destruct (Rle_lt_dec (hp_f p (h a)) (hc_feq p i)) as [G|G]; [exact G|].
    pose proof (proj2 (hc_ceq_feq p _ i H Hi Hf) (Rlt_le _ _ G)) as E. destruct (hy_c p H i Hi) as [[A B] C].
    assert (E' : hp_c p (hp_f p (h a)) i = hp_ceq p i) by lra. clear E H0. unfold hp_c in E'.
    apply (f_equal (fun x => x * (1 - hp_f p (h a)))) in E'. unfold Rdiv in E'. rewrite Rmult_assoc, Rinv_l in E' by lra.
    assert (hp_f p (h a) = hc_feq p i); [|lra]. unfold hc_feq. apply (Rmult_eq_reg_r (hp_cp p i - hp_ceq p i)); [|lra].
    unfold Rdiv. rewrite Rmult_assoc, Rinv_l by lra. lra. }
  apply Eq; [exact Hj|apply (Hh t Ht)|]. apply Rle_trans with (hc_feq p i); [|apply Hmin; exact Hj].
  set (g := fun u => if Rlt_dec 0 (hp_f p (h u) - hc_feq p i) then 1 * (hp_f p (h u) - hc_feq p i) * (hp_f p (h u) - hc_feq p i) else 0).
  assert (Hg : g t = g a).
  { apply (const_of_zero g a b t); [|exact Ht]. intros u Hu. destruct (Hh u Hu) as (Hp & Hf & Hr). destruct (hc_paths p h u H Hp) as (Df & _ & _).
    eapply D_eq; [apply (D_sqpos (fun w => hp_f p (h w) - hc_feq p i) u (hp_frate p (hp_f p (h u)) (hp_r p (h u)) (hp_N p (h u)) - 0) 1); apply D_minus; [exact Df|apply D_const]|].
    cbv beta. destruct (Rlt_dec 0 (hp_f p (h u) - hc_feq p i)) as [G|G]; [|ring].
    rewrite hc_frate_zero; [ring| |lra]. apply hc_switch_one; [assumption|assumption|]. exists i. split; [exact Hi|].
    apply (hc_ceq_feq p _ i H Hi Hf). lra. }
  unfold g in Hg. destruct (Rlt_dec 0 (hp_f p (h a) - hc_feq p i)); [lra|].
  destruct (Rlt_dec 0 (hp_f p (h t) - hc_feq p i)) as [G|G]; [|lra].
  assert (0 < (hp_f p (h t) - hc_feq p i) * (hp_f p (h t) - hc_feq p i)) by (apply Rmult_lt_0_compat; assumption). lra.
Qed.

Lemma argmin (g : nat -> R) n : (0 < n)%nat -> exists i, (i < n)%nat /\ forall j, (j < n)%nat -> g i <= g j.
Proof.
  induction n as [|n IH]; intros Hn; [lia|]. destruct n as [|n].
  - exists 0%nat. split; [lia|]. intros j Hj. replace j with 0%nat by lia. lra.
  - destruct (IH ltac:(lia)) as (i & Hi & Hm). destruct (Rle_lt_dec (g i) (g (S n))) as [G|G].
    + exists i. split; [lia|]. intros j Hj. destruct (Nat.eq_dec j (S n)) as [->|]; [exact G|apply Hm; lia].
    + exists (S n). split; [lia|]. intros j Hj. destruct (Nat.eq_dec j (S n)) as [->|]; [lra|]. pose proof (Hm j ltac:(lia)). lra.
Qed.
Lemma hc_above p h a b : hc_phys p -> hc_history p h a b -> (forall j, (j < hp_n p)%nat -> hp_ceq p j <= hp_c p (hp_f p (h a)) j) ->
  forall t j, a <= t <= b -> (j < hp_n p)%nat -> hp_ceq p j <= hp_c p (hp_f p (h t)) j.
Proof.
  intros H Hh H0. destruct (argmin (hc_feq p) (hp_n p) (hc_n_pos p H)) as (i & Hi & Hm).
  apply (hc_no_overshoot p h a b i H Hh Hi (H0 i Hi) Hm).
Qed.

(** *** Driving force *)
Lemma hc_kTv p : hc_phys p -> 0 < hp_kb p * hp_T p / hp_vm p.
Proof. intros H. destruct (hy_pos p H) as (?&?&?&?&?&?&?&?&?&?). apply Rdiv_lt_0_compat; [apply Rmult_lt_0_compat; assumption|apply hc_vm_pos; assumption]. Qed.
Lemma hc_Gv_sign p f : hc_phys p -> hc_cpos p f -> (hp_Gv p f < 0 <-> rprod (hp_n p) (hp_ceq p) < rprod (hp_n p) (hp_c p f)).
Proof.
  intros H Hc. pose proof (hc_kTv p H) as HK.
  assert (P : 0 < rprod (hp_n p) (hp_c p f)) by (apply rprod_pos; exact Hc).
  assert (Q : 0 < rprod (hp_n p) (hp_ceq p)) by (apply rprod_pos; intros i Hi; destruct (hy_c p H i Hi); lra).
  unfold hp_Gv. replace (- hp_kb p * hp_T p / hp_vm p) with (- (hp_kb p * hp_T p / hp_vm p)) by (field; pose proof (hc_vm_pos p H); lra).
  set (K := hp_kb p * hp_T p / hp_vm p) in *. clearbody K.
  rewrite ln_div by assumption. split; intros G.
  - apply ln_lt_inv; [assumption|assumption|].
    destruct (Rlt_le_dec (ln (rprod (hp_n p) (hp_ceq p))) (ln (rprod (hp_n p) (hp_c p f)))) as [L|L]; [exact L|].
    assert (0 <= K * (ln (rprod (hp_n p) (hp_ceq p)) - ln (rprod (hp_n p) (hp_c p f)))) by (apply Rmult_le_pos; lra). lra.
  - apply ln_increasing in G; [|assumption].
    assert (0 < K * (ln (rprod (hp_n p) (hp_c p f)) - ln (rprod (hp_n p) (hp_ceq p)))) by (apply Rmult_lt_0_compat; lra). lra.
Qed.
Lemma hc_supersaturated p f : hc_phys p -> (forall i, (i < hp_n p)%nat -> hp_ceq p i < hp_c p f i) ->
  hp_Gv p f < 0 /\ 0 < hp_rc p f /\ 0 < hp_Nn p f.
Proof.
  intros H Hc. assert (Hc1 : hc_cpos p f) by (intros i Hi; pose proof (Hc i Hi); destruct (hy_c p H i Hi); lra).
  destruct (hy_pos p H) as (?&?&?&?&?&?&?&?&?&?).
  assert (G : hp_Gv p f < 0).
  { apply (hc_Gv_sign p f H Hc1). apply (rprod_lt _ _ _ (hp_rate p)); [apply hy_n; exact H|apply Hc; apply hy_n; exact H|].
    intros j Hj. pose proof (Hc j Hj). destruct (hy_c p H j Hj). lra. }
  split; [exact G|]. split.
  - unfold hp_rc. replace (-2 * hp_chi p / hp_Gv p f) with (2 * hp_chi p / - hp_Gv p f) by (field; lra). apply Rdiv_lt_0_compat; lra.
  - unfold hp_Nn, hp_ZB. pose proof (hc_vm_pos p H). pose proof (hc_D_pos p H). pose proof (Hc1 (hp_rate p) (hy_n p H)).
    apply Rmult_lt_0_compat; [|apply exp_pos]. apply Rmult_lt_0_compat; [assumption|]. apply Rmult_lt_0_compat.
    + apply Rdiv_lt_0_compat; [|apply pow_lt; assumption]. repeat first [assumption | lra | apply Rmult_lt_0_compat].
    + apply sqrt_lt_R0. apply Rdiv_lt_0_compat; [assumption|apply Rmult_lt_0_compat; assumption].
Qed.
(** Ripening alone: the precipitates coarsen. *)
Lemma hc_coarsen p f r N : hc_phys p -> 0 < f < 1 -> 0 < r -> 0 < N -> 0 < hp_c p f (hp_rate p) -> (exists i, (i < hp_n p)%nat /\ hp_c p f i <= hp_ceq p i) ->
  hp_frate p f r N = 0 /\ 0 < hp_rrate p f r N /\ hp_Nrate p f r N < 0.
Proof.
  intros H Hf Hr HN Hc He. assert (E : hc_switch p f = 1) by (apply hc_switch_one; assumption).
  split; [apply hc_frate_zero; lra|]. unfold hp_rrate, hp_Nrate. cbv zeta. fold (hc_switch p f). rewrite E.
  destruct (hy_pos p H) as (?&?&?&?&?&?&?&?&?&?). pose proof (hc_D_pos p H).
  assert (P : 0 < hp_rr p f r).
  { unfold hp_rr, hp_K. apply Rdiv_lt_0_compat; [|pose proof (pow_lt r 2 Hr); lra]. apply Rdiv_lt_0_compat; repeat first [assumption | lra | apply Rmult_lt_0_compat]. }
  split; [lra|]. unfold hp_Nr. assert (0 < 3 * N / r * hp_rr p f r) by (apply Rmult_lt_0_compat; [apply Rdiv_lt_0_compat; lra|exact P]).
  replace (-3 * N / r * hp_rr p f r) with (- (3 * N / r * hp_rr p f r)) by (field; lra). lra.
Qed.

(** *** Scaling *)
Lemma hc_rescaled p fs rs Ns h h' : fs <> 0 -> rs <> 0 -> Ns <> 0 -> hp_fs p <> 0 -> hp_rs p <> 0 -> hp_Ns p <> 0 ->
  hc_values p h = hc_values (hc_rescale p fs rs Ns) h' ->
  hp_rates p h 0%nat * hp_fs p = hp_rates (hc_rescale p fs rs Ns) h' 0%nat * fs /\
  hp_rates p h 1%nat * hp_rs p = hp_rates (hc_rescale p fs rs Ns) h' 1%nat * rs /\
  hp_rates p h 2%nat * hp_Ns p = hp_rates (hc_rescale p fs rs Ns) h' 2%nat * Ns.
Proof.
  intros A B C A' B' C' E. unfold hc_values in E. assert (E1 := f_equal (fun x => fst (fst x)) E). assert (E2 := f_equal (fun x => snd (fst x)) E). assert (E3 := f_equal snd E). cbn [fst snd] in E1, E2, E3.
  assert (S0 : forall f n, hp_scan (hc_rescale p fs rs Ns) 0 f n = hp_scan p 0 f n) by (intros f n; induction n as [|n IH]; [reflexivity|cbn [hp_scan]; rewrite IH; reflexivity]).
  assert (SW : forall f, hp_switch (hc_rescale p fs rs Ns) 0 f = hp_switch p 0 f) by (intros f; unfold hp_switch; cbv zeta; cbn [hp_n hc_rescale]; rewrite S0; reflexivity).
  assert (RR : forall f r N, hp_rrate (hc_rescale p fs rs Ns) f r N = hp_rrate p f r N) by (intros f r N; unfold hp_rrate; cbv zeta; rewrite SW; reflexivity).
  assert (NR : forall f r N, hp_Nrate (hc_rescale p fs rs Ns) f r N = hp_Nrate p f r N) by (intros f r N; unfold hp_Nrate; cbv zeta; rewrite SW; reflexivity).
  unfold hp_rates. cbv zeta. rewrite <- E1, <- E2, <- E3. unfold hp_frate. rewrite !RR, !NR. cbn [hp_fs hp_rs hp_Ns hc_rescale].
  repeat split; field; auto.
Qed.
Lemma hc_initial p : hp_fs p <> 0 -> hp_rs p <> 0 -> hp_Ns p <> 0 -> hc_values p (hp_init p) = (hp_fi p, hp_ri p, hp_Ni p).
Proof. intros A B C. unfold hc_values, hp_f, hp_r, hp_N, hp_init. f_equal; [f_equal|]; field; assumption. Qed.

(** *** Where the reported derivative is not determined: no precipitate yet *)
Lemma hc_scan_none p j f n : hc_phys p -> f <= 0 -> (n <= hp_n p)%nat -> hp_scan p j f n = (0, j).
Proof.
  intros H Hf. induction n as [|n IH]; intros Hn; [reflexivity|]. cbn [hp_scan]. rewrite IH by lia. cbv zeta. cbn [fst].
  rewrite (hc_x_k p f n H) by (lia || lra). pose proof (hc_k_pos p n H ltac:(lia)).
  assert (f / (1 - f) * hc_k p n <= 0).
  { replace (f / (1 - f) * hc_k p n) with (- (- f / (1 - f) * hc_k p n)) by (field; lra).
    assert (0 <= - f / (1 - f) * hc_k p n); [|lra]. apply Rmult_le_pos; [|lra]. apply Rmult_le_pos; [lra|]. left. apply Rinv_0_lt_compat. lra. }
  destruct (Rlt_dec 0 _); [lra|reflexivity].
Qed.
Lemma hc_switch_none p j f : hc_phys p -> f <= 0 -> hp_switch p j f = (0, j).
Proof.
  intros H Hf. unfold hp_switch. cbv zeta. rewrite hc_scan_none by (assumption || lia). cbn [fst].
  destruct (Rlt_dec 0 0); [lra|]. cbn [fst]. destruct (Rlt_dec 1 0); [lra|reflexivity].
Qed.
Lemma hc_junk p j j' h : hc_phys p -> hp_f p h <= 0 ->
  hp_jac p j h 1%nat 0%nat - hp_jac p j' h 1%nat 0%nat =
  (j - j') * (hp_rr p (hp_f p h) (hp_r p h) - hp_rn p (hp_f p h) (hp_r p h) (hp_N p h)) / hp_rs p * hp_fs p.
Proof.
  intros H Hf. destruct (hy_scale p H) as (S1 & S2 & S3). unfold hp_jac. cbv zeta. cbv iota. unfold hp_r_f.
  rewrite !hc_switch_none by assumption. field. exact S2.
Qed.
