(** Hu-Cocks hardening: exact derivatives. *)
From Verif Require Import Base Diff Blocks.
From Verif Require Import SlipModel SlipSpec SlipProofs HcModel HcSpec HcProofs HcMain HcHardSpec HcHard.
From Coq Require Import Lia Lra List.

Lemma rsum_first n f : rsum (S n) f = f 0%nat + rsum n (fun i => f (S i)).
Proof. replace (S n) with (1 + n)%nat by lia. rewrite rsum_app. cbn. ring. Qed.
Lemma boff_hk k i : boff (hk_sizes k) (S i) = (h_n (hk_d k) + 3 * i)%nat.
Proof. induction i as [|i IH]; [cbn; lia|]. change (boff (hk_sizes k) (S (S i))) with (boff (hk_sizes k) (S i) + 3)%nat. rewrite IH. lia. Qed.
Lemma hk_sub_p k h i : hk_sub k h (S i) = hk_p_part k h i.
Proof. unfold hk_sub, bsub. rewrite boff_hk. reflexivity. Qed.
Lemma hk_sub_d k h : hk_sub k h 0 = hk_d_part k h.
Proof. reflexivity. Qed.

(** The history's parts move along with it. *)
Lemma path_d k c t v : path (boff (hk_sizes k) (S (hk_m k))) c t v -> path (h_n (hk_d k)) (fun u => hk_sub k (c u) 0) t (hk_sub k v 0).
Proof. intros H q Hq. apply (H q). pose proof (boff_lt (hk_sizes k) (S (hk_m k)) 0 q ltac:(lia) Hq). cbn [boff] in *. lia. Qed.
Lemma path_p k c t v i : (i < hk_m k)%nat -> path (boff (hk_sizes k) (S (hk_m k))) c t v -> path 3 (fun u => hk_sub k (c u) (S i)) t (hk_sub k v (S i)).
Proof. intros Hi H q Hq. apply (H (boff (hk_sizes k) (S i) + q)%nat). apply boff_lt; [lia|exact Hq]. Qed.
Lemma D_part p (c : R -> vec) t v : path 3 c t v ->
  is_derive (fun u => hp_f p (c u)) t (v 0%nat * hp_fs p) /\ is_derive (fun u => hp_r p (c u)) t (v 1%nat * hp_rs p) /\ is_derive (fun u => hp_N p (c u)) t (v 2%nat * hp_Ns p).
Proof.
  intros Hc. split; [|split].
  - unfold hp_f; eapply D_eq; [apply D_mult; [apply (Hc 0%nat); lia|apply D_const]|cbv beta; ring].
  - unfold hp_r; eapply D_eq; [apply D_mult; [apply (Hc 1%nat); lia|apply D_const]|cbv beta; ring].
  - unfold hp_N; eapply D_eq; [apply D_mult; [apply (Hc 2%nat); lia|apply D_const]|cbv beta; ring].
Qed.
Lemma hk_dot k (g : nat -> nat -> R) (v : vec) :
  dot (boff (hk_sizes k) (S (hk_m k))) (fun x => g (bblk (hk_sizes k) (S (hk_m k)) x) (bpos (hk_sizes k) (S (hk_m k)) x)) v =
  dot (h_n (hk_d k)) (g 0%nat) (hk_sub k v 0) + rsum (hk_m k) (fun i => dot 3 (g (S i)) (hk_sub k v (S i))).
Proof.
  unfold dot at 1. rewrite rsum_blocks, rsum_first. f_equal.
  - unfold dot. apply rsum_ext. intros q Hq. rewrite bblk_at, bpos_at by (try exact Hq; lia). reflexivity.
  - apply rsum_ext. intros i Hi. unfold dot. apply rsum_ext. intros q Hq. rewrite bblk_at, bpos_at by (try exact Hq; lia). reflexivity.
Qed.

(** *** Strength *)
Lemma hk_strength_exact L k Pd : strength_exact L (hk_d k) Pd -> strength_exact L (hucocks k) (hk_in L k Pd).
Proof.
  intros Hd p Hp c t v Hc HP. destruct HP as (HPd & Hf1 & HNA & Hcb & Htd). specialize (Htd p Hp).
  cbn [h_n h_tau h_dtau hucocks] in *.
  pose proof (Hd p Hp (fun u => hk_sub k (c u) 0) t (hk_sub k v 0) (path_d k c t v Hc) HPd) as Dd. cbv beta in Dd.
  assert (DN : is_derive (fun u => hk_NA k (c u)) t (rsum (hk_m k) (fun i => 2 * (hp_N (hk_p k i) (hk_sub k (c t) (S i)) * (hk_sub k v (S i) 1%nat * hp_rs (hk_p k i)) + hp_r (hk_p k i) (hk_sub k (c t) (S i)) * (hk_sub k v (S i) 2%nat * hp_Ns (hk_p k i)))))).
  { unfold hk_NA. apply D_rsum. intros i Hi. destruct (D_part (hk_p k i) _ t _ (path_p k c t v i Hi Hc)) as (_ & Dr & DN).
    eapply D_eq; [apply D_mult; [apply D_mult; [apply D_const|exact Dr]|exact DN]|cbv beta; ring]. }
  assert (DC : is_derive (fun u => hk_c k (c u)) t (rsum (hk_m k) (fun i => rsum (hp_n (hk_p k i)) (fun s => hp_dc (hk_p k i) (hp_f (hk_p k i) (hk_sub k (c t) (S i))) s / hp_vm (hk_p k i) * hp_fs (hk_p k i)) * hk_sub k v (S i) 0%nat))).
  { unfold hk_c. apply D_rsum. intros i Hi. destruct (D_part (hk_p k i) _ t _ (path_p k c t v i Hi Hc)) as (Df & _ & _).
    rewrite <- rsum_scal_r. apply D_rsum. intros s Hs. unfold Rdiv at 1. eapply D_eq.
    - apply D_mult; [apply (D_hc_c (hk_p k i) s _ t _ Df)|apply D_const]. rewrite hk_sub_p. apply Hf1. exact Hi.
    - cbv beta. unfold Rdiv. ring. }
  set (td := h_tau (hk_d k) L p (hk_sub k (c t) 0)). change (td <> 0) in Htd.
  assert (Ppos : 0 < hk_taup k (c t) * hk_taup k (c t) + td * td).
  { assert (0 < td * td) by nra. assert (0 <= hk_taup k (c t) * hk_taup k (c t)) by apply Rle_0_sqr. lra. }
  assert (SNA : 0 < sqrt (hk_NA k (c t))) by (apply sqrt_lt_R0; exact HNA).
  assert (SCB : 0 < sqrt (hk_c k (c t) * hk_b k)) by (apply sqrt_lt_R0; exact Hcb).
  set (g := fun i q => match i with
    | O => h_dtau (hk_d k) L p (hk_sub k (c t) 0) q * (td / sqrt (hk_taup k (c t) * hk_taup k (c t) + td * td))
    | S i => let m := hk_p k i in let hi := hk_sub k (c t) (S i) in
      match q with
      | 0%nat => rsum (hp_n m) (fun s => hk_ac k * hk_G k * hk_b k * hk_b k / (2 * sqrt (hk_c k (c t) * hk_b k)) * hp_dc m (hp_f m hi) s / hp_vm m * hp_fs m)
      | 1%nat => hk_taup k (c t) / sqrt (hk_taup k (c t) * hk_taup k (c t) + td * td) * hk_ap k * hk_G k * hk_b k * hp_N m hi / sqrt (hk_NA k (c t)) * hp_rs m
      | _ => hk_taup k (c t) / sqrt (hk_taup k (c t) * hk_taup k (c t) + td * td) * hk_ap k * hk_G k * hk_b k * hp_r m hi / sqrt (hk_NA k (c t)) * hp_Ns m
      end end).
  assert (Eq0 : hk_dtau k L p (c t) = fun x => g (bblk (hk_sizes k) (S (hk_m k)) x) (bpos (hk_sizes k) (S (hk_m k)) x)) by reflexivity.
  rewrite Eq0, (hk_dot k g v). clear Eq0. unfold g. clear g. cbv beta iota zeta.
  unfold hk_tau. cbv zeta. eapply D_eq.
  - apply D_plus.
    + apply D_sqrt; [apply D_plus; [apply D_mult; [exact Dd|exact Dd]|]|].
      * apply D_mult; unfold hk_taup; apply D_mult; [apply D_const|apply D_sqrt; [exact DN|exact HNA]|apply D_const|apply D_sqrt; [exact DN|exact HNA]].
      * fold td. lra.
    + apply D_mult; [apply D_const|]. apply D_sqrt; [apply D_mult; [exact DC|apply D_const]|exact Hcb].
  - cbv beta. fold td. rewrite (Rplus_comm (td * td)).
    set (Sq := sqrt (hk_taup k (c t) * hk_taup k (c t) + td * td)).
    assert (PS : 0 < Sq) by (apply sqrt_lt_R0; exact Ppos).
    fold (hk_taup k (c t)). set (tp := hk_taup k (c t)) in *. set (B := hk_ap k * hk_G k * hk_b k).
    rewrite (rsum_ext (hk_m k) (fun i => dot 3 _ _) (fun i =>
      tp / Sq * B / sqrt (hk_NA k (c t)) * / 2 * (2 * (hp_N (hk_p k i) (hk_sub k (c t) (S i)) * (hk_sub k v (S i) 1%nat * hp_rs (hk_p k i)) + hp_r (hk_p k i) (hk_sub k (c t) (S i)) * (hk_sub k v (S i) 2%nat * hp_Ns (hk_p k i))))
      + hk_ac k * hk_G k * hk_b k * hk_b k / (2 * sqrt (hk_c k (c t) * hk_b k)) * (rsum (hp_n (hk_p k i)) (fun s => hp_dc (hk_p k i) (hp_f (hk_p k i) (hk_sub k (c t) (S i))) s / hp_vm (hk_p k i) * hp_fs (hk_p k i)) * hk_sub k v (S i) 0%nat))).
    2:{ intros i Hi. unfold dot. cbn [rsum]. rewrite (rsum_ext (hp_n (hk_p k i)) _ (fun s => hk_ac k * hk_G k * hk_b k * hk_b k / (2 * sqrt (hk_c k (c t) * hk_b k)) * (hp_dc (hk_p k i) (hp_f (hk_p k i) (hk_sub k (c t) (S i))) s / hp_vm (hk_p k i) * hp_fs (hk_p k i)))) by (intros; unfold Rdiv; ring).
        rewrite rsum_scal. unfold B. field. split; lra. }
    rewrite rsum_plus, !rsum_scal.
    rewrite (dot_ext (h_n (hk_d k)) (fun q => h_dtau (hk_d k) L p (hk_sub k (c t) 0) q * (td / Sq)) (fun q => td / Sq * h_dtau (hk_d k) L p (hk_sub k (c t) 0) q) _ (hk_sub k v 0)) by (intros q Hq; try reflexivity; ring).
    assert (Es : dot (h_n (hk_d k)) (fun q => td / Sq * h_dtau (hk_d k) L p (hk_sub k (c t) 0) q) (hk_sub k v 0) = td / Sq * dot (h_n (hk_d k)) (h_dtau (hk_d k) L p (hk_sub k (c t) 0)) (hk_sub k v 0)).
    { unfold dot. rewrite <- rsum_scal. apply rsum_ext. intros; ring. }
    rewrite Es. clear Es. set (X := dot (h_n (hk_d k)) _ _). set (Y := rsum (hk_m k) _). set (Z := rsum (hk_m k) _).
    fold B. field. repeat split; lra.
Qed.

(** *** Rates *)
Lemma hk_rates_exact L k ne Pd : (forall i, (i < hk_m k)%nat -> hc_phys (hk_p k i)) ->
  rates_exact L (hk_d k) (hk_m k + ne) Pd -> rates_exact L (hucocks k) ne (hk_rate_in k Pd).
Proof.
  intros Hphys Hd sl h t vs vh ds dh ns de ve v Hsl Hh Hsafe HP x Hx. destruct HP as [HPd Hreg].
  cbn [h_n hucocks] in *. set (B := boff (hk_sizes k)) in *. set (m := hk_m k) in *.
  set (ns' := fun j => if Nat.ltb j m then 3%nat else ns (j - m)%nat).
  set (de' := fun j => if Nat.ltb j m then (fun (p y : nat) => dh p (B (S j) + y)%nat) else de (j - m)%nat).
  set (ve' := fun j => if Nat.ltb j m then hk_sub k vh (S j) else ve (j - m)%nat).
  assert (Split : forall (F : nat -> vec) , rsum (m + ne) (fun j => dot (ns' j) (F j) (ve' j)) =
    rsum m (fun j => dot 3 (F j) (hk_sub k vh (S j))) + rsum ne (fun j => dot (ns j) (F (m + j)%nat) (ve j))).
  { intros F. rewrite rsum_app. f_equal; apply rsum_ext; intros j Hj; unfold ns', ve'.
    - destruct (Nat.ltb_spec j m); [reflexivity|lia].
    - destruct (Nat.ltb_spec (m + j) m); [lia|]. replace (m + j - m)%nat with j by lia. reflexivity. }
  assert (Ev : forall p, v p = dot 6 (ds p) vs + dot (h_n (hk_d k)) (dh p) (hk_sub k vh 0) + rsum (m + ne) (fun j => dot (ns' j) (de' j p) (ve' j))).
  { intros p. unfold v. rewrite Split.
    assert (E1 : dot (B (S m)) (dh p) vh = dot (h_n (hk_d k)) (dh p) (hk_sub k vh 0) + rsum m (fun j => dot 3 (de' j p) (hk_sub k vh (S j)))).
    { unfold dot at 1. unfold B. rewrite rsum_blocks, rsum_first. f_equal.
      apply rsum_ext. intros j Hj. unfold dot, de'. destruct (Nat.ltb_spec j m); [reflexivity|lia]. }
    rewrite E1. rewrite (rsum_ext ne (fun j => dot (ns j) (de' (m + j)%nat p) (ve j)) (fun j => dot (ns j) (de j p) (ve j))).
    - ring.
    - intros j Hj. unfold de'. destruct (Nat.ltb_spec (m + j) m); [lia|]. replace (m + j - m)%nat with j by lia. reflexivity. }
  cbn [h_rate h_rate_s h_rate_h h_rate_e hucocks]. fold m. fold B.
  destruct (locate_back (hk_sizes k) (S m) x Hx) as (Hb & Hq & _).
  set (b := bblk (hk_sizes k) (S m) x) in *. set (q := bpos (hk_sizes k) (S m) x) in *. clearbody b q. destruct b as [|i].
  - cbn [hk_sizes] in Hq.
    pose proof (Hd sl (fun u => hk_sub k (h u) 0) t vs (hk_sub k vh 0) ds dh ns' de' ve') as K. cbv zeta in K.
    specialize (K (fun p Hp => D_eq _ _ _ _ (Hsl p Hp) (Ev p)) (path_d k h t vh Hh)).
    assert (Sf : forall p, (p < l_n L)%nat -> sl t p <> 0 \/ dot 6 (ds p) vs + dot (h_n (hk_d k)) (dh p) (hk_sub k vh 0) + rsum (m + ne) (fun j => dot (ns' j) (de' j p) (ve' j)) = 0).
    { intros p Hp. rewrite <- Ev. apply Hsafe. exact Hp. }
    specialize (K Sf HPd q Hq). eapply D_eq; [exact K|]. cbv beta.
    rewrite (Split (fun j => h_rate_e (hk_d k) L (sl t) (de' j) (hk_sub k (h t) 0) q)).
    set (g := fun j qc => match j with
         | O => h_rate_h (hk_d k) L (sl t) dh (hk_sub k (h t) 0) q qc
         | S i => h_rate_e (hk_d k) L (sl t) (fun p y => dh p (B (S i) + y)%nat) (hk_sub k (h t) 0) q qc end).
    change (dot (B (S m)) _ vh) with (dot (boff (hk_sizes k) (S (hk_m k))) (fun c => g (bblk (hk_sizes k) (S (hk_m k)) c) (bpos (hk_sizes k) (S (hk_m k)) c)) vh).
    rewrite (hk_dot k g vh). unfold g. fold m.
    rewrite (rsum_ext m (fun j => dot 3 (h_rate_e (hk_d k) L (sl t) (de' j) (hk_sub k (h t) 0) q) (hk_sub k vh (S j)))
      (fun j => dot 3 (h_rate_e (hk_d k) L (sl t) (fun p y => dh p (B (S j) + y)%nat) (hk_sub k (h t) 0) q) (hk_sub k vh (S j)))).
    2:{ intros j Hj. unfold de'. destruct (Nat.ltb_spec j m); [reflexivity|lia]. }
    rewrite (rsum_ext ne (fun j => dot (ns j) (h_rate_e (hk_d k) L (sl t) (de' (m + j)%nat) (hk_sub k (h t) 0) q) (ve j))
      (fun j => dot (ns j) (h_rate_e (hk_d k) L (sl t) (de j) (hk_sub k (h t) 0) q) (ve j))).
    2:{ intros j Hj. unfold de'. destruct (Nat.ltb_spec (m + j) m); [lia|]. replace (m + j - m)%nat with j by lia. reflexivity. }
    match goal with |- ?a + ?b + (?c + ?d) = _ => transitivity (a + (b + c) + d); [ring|reflexivity] end.
  - cbn [hk_sizes] in Hq. assert (Hi : (i < m)%nat) by lia.
    pose proof (hc_jacobian (hk_p k i) (hk_junk k) (Hphys i Hi) (fun u => hk_sub k (h u) (S i)) t (hk_sub k vh (S i)) (path_p k h t vh i Hi Hh)) as K. cbv beta in K.
    rewrite hk_sub_p in K. specialize (K (Hreg i Hi) q Hq). rewrite <- hk_sub_p in K. eapply D_eq; [exact K|].
    set (g := fun j qc => if Nat.eqb j (S i) then hp_jac (hk_p k i) (hk_junk k) (hk_sub k (h t) (S i)) q qc else 0).
    change (dot (B (S m)) _ vh) with (dot (boff (hk_sizes k) (S (hk_m k))) (fun c => g (bblk (hk_sizes k) (S (hk_m k)) c) (bpos (hk_sizes k) (S (hk_m k)) c)) vh).
    rewrite (hk_dot k g vh). unfold g. fold m. cbn [Nat.eqb].
    assert (Z : forall n w, dot n (fun _ => 0) w = 0) by (intros n w; unfold dot; rewrite (rsum_ext n _ (fun _ => 0)) by (intros; ring); apply rsum_0).
    rewrite !Z. rewrite (rsum_ext ne _ (fun _ => 0)) by (intros; apply Z). rewrite rsum_0.
    rewrite (rsum_ext m _ (fun j => (if Nat.eqb j i then 1 else 0) * dot 3 (fun qc => hp_jac (hk_p k i) (hk_junk k) (hk_sub k (h t) (S i)) q qc) (hk_sub k vh (S i)))).
    2:{ intros j Hj. destruct (Nat.eqb_spec j i) as [->|Hne]; [ring|]. rewrite Z. ring. }
    rewrite (rsum_one m i 1 (fun _ => dot 3 _ _)) by exact Hi. unfold mv, dot. ring.
Qed.

(** *** The strength itself *)
Lemma hk_tau_ge k L p h : 0 <= hk_ac k * hk_G k * hk_b k -> Rabs (h_tau (hk_d k) L p (hk_d_part k h)) <= h_tau (hucocks k) L p h.
Proof.
  intros Hac. cbn [h_tau hucocks]. unfold hk_tau. cbv zeta. rewrite hk_sub_d. set (td := h_tau (hk_d k) L p (hk_d_part k h)).
  assert (0 <= hk_ac k * hk_G k * hk_b k * sqrt (hk_c k h * hk_b k)) by (apply Rmult_le_pos; [exact Hac|apply sqrt_pos]).
  assert (Rabs td <= sqrt (td * td + hk_taup k h * hk_taup k h)); [|lra].
  rewrite <- sqrt_Rsqr_abs. apply sqrt_le_1_alt. unfold Rsqr. pose proof (Rle_0_sqr (hk_taup k h)) as Q. unfold Rsqr in Q. lra.
Qed.
Lemma hk_tau_bare k L p h : hk_m k = 0%nat -> h_tau (hucocks k) L p h = Rabs (h_tau (hk_d k) L p (hk_d_part k h)).
Proof.
  intros Hm. cbn [h_tau hucocks]. unfold hk_tau, hk_taup, hk_c, hk_NA. rewrite Hm. cbn [rsum]. cbv zeta.
  rewrite Rmult_0_l, sqrt_0, !Rmult_0_r, !Rplus_0_r. rewrite hk_sub_d. apply sqrt_Rsqr_abs.
Qed.

(** *** Arrhenius *)
Lemma ar_below tau s A : 0 < Rabs tau < s -> 0 < A -> 0 < 1 - cpow (Rabs (tau / s)) A.
Proof.
  intros [H0 H1] HA. assert (Hs : 0 < s) by lra.
  assert (E : Rabs (tau / s) = Rabs tau / s) by (unfold Rdiv; rewrite Rabs_mult, (Rabs_pos_eq (/ s)); [reflexivity|left; apply Rinv_0_lt_compat; exact Hs]).
  rewrite E. assert (P : 0 < Rabs tau / s) by (apply Rdiv_lt_0_compat; assumption).
  assert (Q : Rabs tau / s < 1). { apply (Rmult_lt_reg_r s); [exact Hs|]. unfold Rdiv. rewrite Rmult_assoc, Rinv_l by lra. lra. }
  rewrite cpow_pos by exact P. unfold Rpower.
  assert (ln (Rabs tau / s) < 0) by (rewrite <- ln_1; apply ln_increasing; assumption).
  assert (exp (A * ln (Rabs tau / s)) < exp 0) by (apply exp_increasing; assert (0 < A * - ln (Rabs tau / s)) by (apply Rmult_lt_0_compat; lra); lra).
  rewrite exp_0 in H2. lra.
Qed.
Lemma ar_above tau s A : 0 < s < Rabs tau -> 0 < A -> 1 - cpow (Rabs (tau / s)) A < 0.
Proof.
  intros [Hs H1] HA.
  assert (E : Rabs (tau / s) = Rabs tau / s) by (unfold Rdiv; rewrite Rabs_mult, (Rabs_pos_eq (/ s)); [reflexivity|left; apply Rinv_0_lt_compat; exact Hs]).
  rewrite E. assert (P : 0 < Rabs tau / s) by (apply Rdiv_lt_0_compat; lra).
  assert (Q : 1 < Rabs tau / s). { apply (Rmult_lt_reg_r s); [exact Hs|]. unfold Rdiv. rewrite Rmult_assoc, Rinv_l by lra. lra. }
  rewrite cpow_pos by exact P. unfold Rpower.
  assert (0 < ln (Rabs tau / s)) by (rewrite <- ln_1; apply ln_increasing; lra).
  assert (exp 0 < exp (A * ln (Rabs tau / s))) by (apply exp_increasing; apply Rmult_lt_0_compat; assumption).
  rewrite exp_0 in H0. lra.
Qed.
Lemma Rpower_m1 x A : 0 < x -> Rpower x (A - 1) = Rpower x A / x.
Proof. intros H. unfold Rminus. rewrite Rpower_plus, Rpower_Ropp, Rpower_1 by exact H. reflexivity. Qed.
Lemma Rpower_m2 x A : 0 < x -> Rpower x (A - 2) = Rpower x A / (x * x).
Proof. intros H. replace (A - 2) with (A - 1 - 1) by ring. rewrite !Rpower_m1 by exact H. field. lra. Qed.
Lemma copysign1 x : x <> 0 -> copysign 1 x = x / Rabs x.
Proof.
  intros H. unfold copysign. rewrite Rabs_R1. destruct (Rlt_dec x 0).
  - rewrite Rabs_left by assumption. field. lra.
  - rewrite Rabs_pos_eq by lra. field. exact H.
Qed.
Lemma ar_exact v res : 0 < ar_A v -> 0 <= ar_g0 v * ar_B v * ar_F v -> scalar_exact (ar_rule v res) ar_in.
Proof.
  intros HA Hs tau st t vt vst Ht Hst HP. cbn [r_n r_slip r_dtau r_dstr ar_rule] in *. pose proof (Hst 0%nat ltac:(lia)) as H0.
  destruct HP as [P0 P1]. assert (Hn : tau t <> 0) by (intros E; rewrite E, Rabs_R0 in P0; lra).
  set (s := st t 0%nat) in *. assert (Hs0 : 0 < s) by lra.
  pose proof (ar_below (tau t) s (ar_A v) (conj P0 P1) HA) as Hu.
  assert (Dx : is_derive (fun u => Rabs (tau u / st u 0%nat)) t (copysign 1 (tau t / s) * (vt / s - tau t * vst 0%nat / s ^ 2))).
  { apply (D_abs_safe (fun u => tau u / st u 0%nat)).
    - eapply D_eq; [apply D_div; [exact Ht|exact H0|fold s; lra]|cbv beta; fold s; field; lra].
    - left. fold s. unfold Rdiv. apply Rmult_integral_contrapositive_currified; [exact Hn|apply Rinv_neq_0_compat; lra]. }
  assert (Ex : Rabs (tau t / s) = Rabs (tau t) / s) by (unfold Rdiv; rewrite Rabs_mult, (Rabs_pos_eq (/ s)); [reflexivity|left; apply Rinv_0_lt_compat; exact Hs0]).
  assert (Px : 0 < Rabs (tau t / s)) by (rewrite Ex; apply Rdiv_lt_0_compat; assumption).
  assert (Sg : copysign 1 (tau t / s) = copysign 1 (tau t)).
  { rewrite !copysign1; [rewrite Ex; field; split; lra|exact Hn|]. unfold Rdiv. apply Rmult_integral_contrapositive_currified; [exact Hn|apply Rinv_neq_0_compat; lra]. }
  assert (Lc : locally t (fun u => ar_g0 v * exp (- ar_F v * cpow (ar_u v (tau u) (st u 0%nat)) (ar_B v)) * copysign 1 (tau t) = ar_slip v (tau u) (st u))).
  { destruct (Rtotal_order (tau t) 0) as [G|[G|G]]; [|contradiction|].
    - eapply filter_imp; [|apply (loc_lt tau t vt 0 Ht G)]. intros u Hu'. cbv beta in Hu'. unfold ar_slip. destruct (Req_EM_T (tau u) 0); [lra|].
      unfold copysign. destruct (Rlt_dec (tau t) 0); [|lra]. destruct (Rlt_dec (tau u) 0); [reflexivity|lra].
    - eapply filter_imp; [|apply (loc_gt tau t vt 0 Ht G)]. intros u Hu'. cbv beta in Hu'. unfold ar_slip. destruct (Req_EM_T (tau u) 0); [lra|].
      unfold copysign. destruct (Rlt_dec (tau t) 0); [lra|]. destruct (Rlt_dec (tau u) 0); [lra|reflexivity]. }
  eapply (D_loc _ _ t _ Lc). clear Lc. unfold ar_u. eapply D_eq.
  - apply D_mult; [|apply D_const]. apply D_mult; [apply D_const|]. apply D_exp. apply D_mult; [apply D_const|].
    apply D_cpow; [|cbv beta; fold s; exact Hu]. apply D_minus; [apply D_const|]. apply D_cpow; [exact Dx|exact Px].
  - cbv beta. fold s. rewrite Sg. unfold dot. cbn [rsum]. unfold ar_dtau, ar_dstr. cbv zeta. fold s.
    destruct (Req_EM_T (tau t) 0); [contradiction|]. unfold ar_u.
    rewrite !(cpow_pos (Rabs (tau t / s))) in * by exact Px. rewrite !(cpow_pos (1 - _)) by exact Hu.
    rewrite (Rpower_m1 (Rabs (tau t / s))), (Rpower_m2 (Rabs (tau t / s))) by exact Px.
    set (X := Rpower (Rabs (tau t / s)) (ar_A v)) in *. assert (PX : 0 < X) by apply exp_pos.
    set (E := exp _). assert (PE : 0 < E) by apply exp_pos.
    set (Y := Rpower (1 - X) (ar_B v - 1)). assert (PY : 0 < Y) by apply exp_pos.
    rewrite Ex. rewrite (copysign1 (tau t) Hn).
    set (a := Rabs (tau t)) in *. assert (Ea : tau t * tau t = a * a) by (unfold a; rewrite <- Rabs_mult; rewrite Rabs_pos_eq; [reflexivity|apply Rle_0_sqr]).
    assert (Ab : Rabs (- ar_g0 v * ar_A v * ar_B v * ar_F v * tau t * (X / (a / s * (a / s))) * Y * E / s ^ 2) = ar_g0 v * ar_B v * ar_F v * ar_A v * a * (X / (a / s * (a / s))) * Y * E / s ^ 2).
    { replace (- ar_g0 v * ar_A v * ar_B v * ar_F v * tau t * (X / (a / s * (a / s))) * Y * E / s ^ 2)
        with (- (ar_g0 v * ar_B v * ar_F v * ar_A v * (X * Y * E / (a * a))) * tau t) by (field; split; lra).
      rewrite Rabs_mult, Rabs_Ropp. fold a. rewrite Rabs_pos_eq; [field; split; lra|].
      apply Rmult_le_pos; [apply Rmult_le_pos; lra|]. left. apply Rdiv_lt_0_compat; [repeat apply Rmult_lt_0_compat; assumption|apply Rmult_lt_0_compat; assumption]. }
    rewrite Ab. apply (Rmult_eq_reg_r (a * a)); [|apply Rmult_integral_contrapositive_currified; lra].
    replace (tau t ^ 2) with (a * a) by (rewrite <- Ea; ring).
    assert (Ea2 : tau t ^ 2 = a ^ 2) by (transitivity (tau t * tau t); [ring|rewrite Ea; ring]).
    field_simplify; [|repeat split; lra|repeat split; lra]. rewrite ?Ea2.
    replace (tau t ^ 3) with (tau t * a ^ 2) by (rewrite <- Ea2; ring).
    field. repeat split; lra.
Qed.
(** The rate jumps at zero resolved shear: on either side it tends to g0 exp(-F) with the sign of the
    shear, at zero it is zero. *)
Lemma ar_jump v s : 0 < ar_g0 v -> 0 < ar_A v -> 0 <= ar_B v -> 0 <= ar_F v -> 0 < s -> ~ continuous (fun tau => ar_slip v tau (fun _ => s)) 0.
Proof.
  intros Hg HA HB HF Hs Hc. apply continuity_pt_filterlim in Hc.
  assert (Pe : 0 < ar_g0 v * exp (- ar_F v)) by (apply Rmult_lt_0_compat; [exact Hg|apply exp_pos]).
  destruct (Hc _ Pe) as (d & Hd & H). set (x := Rmin (d / 2) (s / 2)).
  assert (Hx : 0 < x) by (apply Rmin_pos; lra). assert (Hx1 : x < s) by (pose proof (Rmin_r (d / 2) (s / 2)); unfold x; lra).
  assert (Hx2 : x < d) by (pose proof (Rmin_l (d / 2) (s / 2)); unfold x; lra).
  specialize (H x). cbn in H. unfold R_dist in H.
  assert (K : D_x no_cond 0 x /\ Rabs (x - 0) < d).
  { split; [split; [exact I|lra]|]. rewrite Rminus_0_r, Rabs_pos_eq; lra. }
  specialize (H K). unfold ar_slip in H. destruct (Req_EM_T x 0); [lra|]. destruct (Req_EM_T 0 0); [|lra].
  assert (Hb : 0 < Rabs x < s) by (rewrite Rabs_pos_eq; lra).
  pose proof (ar_below x s (ar_A v) Hb HA) as Hu. fold (ar_u v x s) in Hu.
  assert (U1 : ar_u v x s <= 1) by (unfold ar_u; pose proof (cpow_nonneg (Rabs (x / s)) (ar_A v)); lra).
  rewrite Rminus_0_r in H. unfold copysign in H. destruct (Rlt_dec x 0); [lra|]. rewrite Rabs_R1, Rmult_1_r in H.
  rewrite Rabs_pos_eq in H by (apply Rmult_le_pos; [lra|left; apply exp_pos]).
  apply Rmult_lt_reg_l in H; [|exact Hg]. apply exp_lt_inv in H.
  assert (N : cpow (ar_u v x s) (ar_B v) <= 1).
  { rewrite cpow_pos by exact Hu. rewrite <- (Rpower_O (ar_u v x s) Hu). destruct (Req_dec (ar_u v x s) 1) as [E|E].
    - rewrite E. unfold Rpower. rewrite ln_1, !Rmult_0_r. lra.
    - unfold Rpower. assert (L : ln (ar_u v x s) < 0) by (rewrite <- ln_1; apply ln_increasing; lra).
      assert (Q : ar_B v * ln (ar_u v x s) <= 0) by (assert (0 <= ar_B v * - ln (ar_u v x s)) by (apply Rmult_le_pos; lra); lra).
      rewrite Rmult_0_l. destruct Q as [Q|Q]; [left; apply exp_increasing; exact Q|rewrite Q; lra]. }
  assert (ar_F v * cpow (ar_u v x s) (ar_B v) <= ar_F v * 1) by (apply Rmult_le_compat_l; assumption). lra.
Qed.
