(** The precipitation model with several precipitates: derivatives. *)
From Verif Require Import Base Diff.
From Verif Require Import GhModel HcModel HcSpec GhSpec SlipProofs.
From Coq Require Import List Lia Lra.

(** *** Sums over species *)
Lemma rlist_ext f g l : (forall x, In x l -> f x = g x) -> rlist f l = rlist g l.
Proof. induction l as [|x l IH]; cbn; intros H; [reflexivity|]. rewrite H, IH by auto. reflexivity. Qed.
Lemma rlist_0 l : rlist (fun _ => 0) l = 0.
Proof. induction l as [|x l IH]; cbn; [reflexivity|]. rewrite IH. ring. Qed.
Lemma rlist_scal k f l : rlist (fun x => k * f x) l = k * rlist f l.
Proof. induction l as [|x l IH]; cbn; [ring|]. rewrite IH. ring. Qed.
Lemma rlist_plus f g l : rlist (fun x => f x + g x) l = rlist f l + rlist g l.
Proof. induction l as [|x l IH]; cbn; [ring|]. rewrite IH. ring. Qed.
Lemma rlist_rsum n (f : nat -> nat -> R) l : rlist (fun x => rsum n (f x)) l = rsum n (fun j => rlist (fun x => f x j) l).
Proof. induction l as [|x l IH]; cbn [rlist]; [symmetry; apply rsum_0|]. rewrite IH, <- rsum_plus. reflexivity. Qed.
Lemma rlist_pick g s l : NoDup l -> rlist (fun x => if Nat.eqb x s then g x else 0) l = if existsb (Nat.eqb s) l then g s else 0.
Proof.
  induction l as [|x l IH]; intros H; [reflexivity|]. inversion H as [|? ? Hn Hd]; subst. cbn [rlist existsb]. rewrite (Nat.eqb_sym s x).
  destruct (Nat.eqb_spec x s) as [->|Hne]; cbn [orb]; [|rewrite IH by assumption; ring].
  rewrite (rlist_ext _ (fun _ => 0)); [rewrite rlist_0; ring|]. intros y Hy. destruct (Nat.eqb_spec y s); [subst; contradiction|reflexivity].
Qed.
Lemma D_rlist (f : nat -> R -> R) d l t : (forall x, In x l -> is_derive (f x) t (d x)) -> is_derive (fun u => rlist (fun x => f x u) l) t (rlist d l).
Proof. induction l as [|x l IH]; cbn; intros H; [apply D_const|]. apply D_plus; [apply H; auto|apply IH; auto]. Qed.
Lemma in_sp_in p s : in_sp p s = true <-> In s (gp_sp p).
Proof.
  unfold in_sp. rewrite existsb_exists. split; [intros (x & Hx & E); apply Nat.eqb_eq in E; subst; exact Hx|intros H; exists s; split; [exact H|apply Nat.eqb_refl]].
Qed.
Lemma rsum_pairs n f : rsum (2 * n) f = rsum n (fun j => f (2 * j)%nat + f (2 * j + 1)%nat).
Proof.
  induction n as [|n IH]; [reflexivity|]. replace (2 * S n)%nat with (S (S (2 * n))) by lia. cbn [rsum]. rewrite IH.
  replace (2 * n + 1)%nat with (S (2 * n)) by lia. ring.
Qed.
Lemma two_even j : Nat.div (2 * j) 2 = j /\ Nat.modulo (2 * j) 2 = 0%nat.
Proof. split; [rewrite Nat.mul_comm; apply Nat.div_mul; lia|rewrite Nat.mul_comm; apply Nat.mod_mul; lia]. Qed.
Lemma two_odd j : Nat.div (2 * j + 1) 2 = j /\ Nat.modulo (2 * j + 1) 2 = 1%nat.
Proof.
  split; [symmetry; apply (Nat.div_unique (2 * j + 1) 2 j 1); lia|symmetry; apply (Nat.mod_unique (2 * j + 1) 2 j 1); lia].
Qed.

(** *** Concentrations *)
Lemma g_ct_held m F s : g_phys m -> g_ct m F s = g_c0 m s - held m F s.
Proof.
  intros H. unfold g_ct, held. f_equal. apply rsum_ext. intros i Hi. destruct (gy_sp m H i Hi) as (Hd & _).
  rewrite (rlist_pick (fun x => F i * gp_cp (g_p m i) x)) by exact Hd. reflexivity.
Qed.
Lemma g_fs_taken m F s : g_phys m -> g_fs m F s = taken m F s.
Proof.
  intros H. unfold g_fs, taken. apply rsum_ext. intros i Hi. destruct (gy_sp m H i Hi) as (Hd & _).
  rewrite (rlist_pick (fun _ => F i)) by exact Hd. reflexivity.
Qed.
Lemma g_ft_taken m F s : g_phys m -> g_ft m F s = 1 - taken m F s.
Proof. intros H. change (g_ft m F s) with (1 - g_fs m F s). rewrite g_fs_taken by exact H. reflexivity. Qed.
Lemma g_raw m F s : g_phys m -> g_ct m F s / g_ft m F s = left_over m F s.
Proof. intros H. rewrite g_ct_held, g_ft_taken by exact H. reflexivity. Qed.
Lemma g_c_val m F s : g_phys m -> g_c m F s = if Rlt_dec geps (left_over m F s) then left_over m F s else geps.
Proof. intros H. unfold g_c. cbv zeta. rewrite g_raw by exact H. reflexivity. Qed.
Lemma geps_pos : 0 < geps.
Proof. unfold geps. apply Rinv_0_lt_compat. apply pow_lt. lra. Qed.
Lemma g_c_pos m F s : g_phys m -> 0 < g_c m F s.
Proof. intros H. rewrite g_c_val by exact H. pose proof geps_pos. destruct (Rlt_dec geps (left_over m F s)); lra. Qed.
Definition Fpath (m : gmod) (F : R -> vec) t (vF : vec) : Prop := path (g_np m) F t vF.
Lemma D_held m (F : R -> vec) t vF s : Fpath m F t vF -> is_derive (fun u => held m (F u) s) t (rsum (g_np m) (fun j => if in_sp (g_p m j) s then gp_cp (g_p m j) s * vF j else 0)).
Proof.
  intros H. unfold held. apply D_rsum. intros i Hi. destruct (in_sp (g_p m i) s); [|apply D_const].
  eapply D_eq; [apply D_mult; [apply (H i Hi)|apply D_const]|cbv beta; ring].
Qed.
Lemma D_taken m (F : R -> vec) t vF s : Fpath m F t vF -> is_derive (fun u => taken m (F u) s) t (rsum (g_np m) (fun j => if in_sp (g_p m j) s then vF j else 0)).
Proof. intros H. unfold taken. apply D_rsum. intros i Hi. destruct (in_sp (g_p m i) s); [apply (H i Hi)|apply D_const]. Qed.
Lemma D_g_c m (F : R -> vec) t vF s : g_phys m -> Fpath m F t vF -> taken m (F t) s <> 1 -> left_over m (F t) s <> geps ->
  is_derive (fun u => g_c m (F u) s) t (rsum (g_np m) (fun j => g_c_f m (F t) s j * vF j)).
Proof.
  intros H HF Ht Hne.
  assert (DL : is_derive (fun u => left_over m (F u) s) t (rsum (g_np m) (fun j => (if in_sp (g_p m j) s then - gp_cp (g_p m j) s / (1 - taken m (F t) s) + left_over m (F t) s / (1 - taken m (F t) s) else 0) * vF j))).
  { unfold left_over at 1. eapply D_eq; [apply D_div; [apply D_minus; [apply D_const|apply (D_held m F t vF s HF)]|apply D_minus; [apply D_const|apply (D_taken m F t vF s HF)]|lra]|].
    cbv beta. set (a := held m (F t) s). set (k := taken m (F t) s) in *.
    rewrite (rsum_ext (g_np m) (fun j => (if in_sp (g_p m j) s then - gp_cp (g_p m j) s / (1 - k) + left_over m (F t) s / (1 - k) else 0) * vF j)
      (fun j => / (1 - k) * (-1) * (if in_sp (g_p m j) s then gp_cp (g_p m j) s * vF j else 0) + left_over m (F t) s * / (1 - k) * (if in_sp (g_p m j) s then vF j else 0))).
    2:{ intros j Hj. destruct (in_sp (g_p m j) s); unfold Rdiv; ring. }
    rewrite rsum_plus, !rsum_scal. unfold left_over. fold a. fold k. field. lra. }
  assert (Ef : forall j, g_c_f m (F t) s j = if in_sp (g_p m j) s then if Rlt_dec geps (left_over m (F t) s) then - gp_cp (g_p m j) s / (1 - taken m (F t) s) + left_over m (F t) s / (1 - taken m (F t) s) else 0 else 0).
  { intros j. unfold g_c_f. rewrite g_raw, g_ft_taken by exact H. destruct (in_sp (g_p m j) s); [|reflexivity]. destruct (Rlt_dec geps (left_over m (F t) s)); [|reflexivity]. unfold Rdiv. ring. }
  destruct (Rlt_dec geps (left_over m (F t) s)) as [G|G].
  - eapply (D_loc (fun u => left_over m (F u) s)).
    + eapply filter_imp; [|apply (loc_gt _ t _ geps DL G)]. intros u Hu. cbv beta in Hu. rewrite g_c_val by exact H. destruct (Rlt_dec geps _); [reflexivity|contradiction].
    + eapply D_eq; [exact DL|]. apply rsum_ext. intros j Hj. rewrite Ef. reflexivity.
  - eapply (D_loc (fun u => geps)).
    + eapply filter_imp; [|apply (loc_lt _ t _ geps DL ltac:(lra))]. intros u Hu. cbv beta in Hu. rewrite g_c_val by exact H. destruct (Rlt_dec geps _); [lra|reflexivity].
    + eapply D_eq; [apply D_const|]. symmetry. rewrite (rsum_ext _ _ (fun _ => 0)); [apply rsum_0|]. intros j Hj. rewrite Ef. destruct (in_sp (g_p m j) s); ring.
Qed.

(** *** Driving force, growth *)
Definition c_reg (m : gmod) (F : vec) : Prop := forall s, (s < g_ns m)%nat -> taken m F s <> 1 /\ left_over m F s <> geps.
Lemma g_v_pos m i : g_phys m -> (i < g_np m)%nat -> 0 < g_v m i.
Proof. intros H Hi. destruct (gy_p m H i Hi) as (? & ? & _). destruct (gy_k m H) as (? & ? & _). apply Rdiv_lt_0_compat; assumption. Qed.
Lemma g_rate_in m i : g_phys m -> (i < g_np m)%nat -> (gp_rate (g_p m i) < g_ns m)%nat.
Proof. intros H Hi. destruct (gy_sp m H i Hi) as (_ & Hr & Hs). apply Hs. exact Hr. Qed.
Lemma D_g_G m (F : R -> vec) t vF i : g_phys m -> (i < g_np m)%nat -> Fpath m F t vF -> c_reg m (F t) ->
  is_derive (fun u => g_G m (F u) i) t (rsum (g_np m) (fun j => g_G_f m (F t) i j * vF j)).
Proof.
  intros H Hi HF Hc. unfold g_G, g_G_f. set (K := g_kb m * g_T m / g_v m i).
  eapply D_eq.
  - apply D_mult; [|apply D_const].
    apply (D_rlist (fun s u => - ln (g_c m (F u) s / g_ceq m s)) (fun s => - (/ g_c m (F t) s * rsum (g_np m) (fun j => g_c_f m (F t) s j * vF j)))).
    intros s Hs. apply D_opp. destruct (gy_sp m H i Hi) as (_ & _ & Hn). pose proof (Hn s Hs) as Hns. destruct (Hc s Hns) as [C1 C2]. destruct (gy_s m H s Hns). pose proof geps_pos.
    pose proof (g_c_pos m (F t) s H).
    eapply D_eq; [apply D_ln; [apply D_div; [apply (D_g_c m F t vF s H HF C1 C2)|apply D_const|lra]|apply Rdiv_lt_0_compat; lra]|cbv beta; field; split; lra].
  - cbv beta. rewrite Rmult_0_r, Rplus_0_r || idtac.
    rewrite (rlist_ext _ (fun s => rsum (g_np m) (fun j => -1 / g_c m (F t) s * g_c_f m (F t) s j * vF j))).
    2:{ intros s Hs. pose proof (g_c_pos m (F t) s H). rewrite <- rsum_scal, <- rsum_opp. apply rsum_ext. intros j Hj. field. lra. }
    rewrite rlist_rsum.
    rewrite (rsum_ext (g_np m) (fun j => rlist (fun s => -1 / g_c m (F t) s * g_c_f m (F t) s j) (gp_sp (g_p m i)) * K * vF j) (fun j => K * rlist (fun s => -1 / g_c m (F t) s * g_c_f m (F t) s j * vF j) (gp_sp (g_p m i)))).
    2:{ intros j Hj. rewrite (rlist_ext (fun s => -1 / g_c m (F t) s * g_c_f m (F t) s j * vF j) (fun s => vF j * (-1 / g_c m (F t) s * g_c_f m (F t) s j))) by (intros; ring).
        rewrite rlist_scal. ring. }
    rewrite rsum_scal. ring.
Qed.
Lemma rsum_lin n (a b : R) (f g v : nat -> R) : rsum n (fun j => (a * f j + b * g j) * v j) = a * rsum n (fun j => f j * v j) + b * rsum n (fun j => g j * v j).
Proof. rewrite <- !rsum_scal, <- rsum_plus. apply rsum_ext. intros. ring. Qed.
Lemma D_g_Ng m (F : R -> vec) t vF i : g_phys m -> (i < g_np m)%nat -> Fpath m F t vF -> c_reg m (F t) -> g_G m (F t) i <> 0 ->
  is_derive (fun u => g_Ng m (F u) i) t (rsum (g_np m) (fun j => g_Ng_f m (F t) i j * vF j)).
Proof.
  intros H Hi HF Hc HG. destruct (gy_p m H i Hi) as (Ham & HVm & _ & _ & Hchi & _). destruct (gy_k m H) as (Hkb & HNa & HR & HT).
  destruct (Hc (gp_rate (g_p m i)) (g_rate_in m i H Hi)) as [C1 C2].
  pose proof (D_g_c m F t vF (gp_rate (g_p m i)) H HF C1 C2) as DC. pose proof (D_g_G m F t vF i H Hi HF Hc) as DG.
  set (c' := rsum (g_np m) (fun j => g_c_f m (F t) (gp_rate (g_p m i)) j * vF j)) in *.
  set (G' := rsum (g_np m) (fun j => g_G_f m (F t) i j * vF j)) in *.
  assert (Ek : rsum (g_np m) (fun j => g_Ng_f m (F t) i j * vF j) =
    gp_N0 (g_p m i) * exp (- g_Gs m (F t) i / g_kb m / g_T m) * g_Zk m i * c' +
    gp_N0 (g_p m i) * g_Z m (F t) i * exp (- g_Gs m (F t) i / g_kb m / g_T m) * -1 / g_kb m / g_T m * (-32 * PI * gp_chi (g_p m i) ^ 3 / 3 / g_G m (F t) i ^ 3) * G').
  { unfold c', G', g_Ng_f. apply rsum_lin. }
  rewrite Ek. clear Ek. clearbody c' G'.
  assert (DS : is_derive (fun u => g_Gs m (F u) i) t (-32 * PI * gp_chi (g_p m i) ^ 3 / 3 / g_G m (F t) i ^ 3 * G')).
  { unfold g_Gs. eapply D_ext; [intros u; cbn [pow]; reflexivity|]. eapply D_eq.
    - apply D_div; [apply D_const|apply D_mult; [exact DG|apply D_mult; [exact DG|apply D_const]]|].
      cbv beta. rewrite Rmult_1_r. apply Rmult_integral_contrapositive_currified; assumption.
    - cbv beta. field. exact HG. }
  unfold g_Ng, g_Z, g_Zk. eapply D_eq.
  - apply D_mult.
    + apply D_mult; [apply D_const|]. apply D_mult; [|apply D_const]. apply D_div; [apply D_mult; [apply D_const|exact DC]|apply D_const|apply pow_nonzero; lra].
    + apply D_exp. apply D_div; [apply D_div; [apply D_opp; exact DS|apply D_const|lra]|apply D_const|lra].
  - cbv beta. field. repeat split; lra.
Qed.
Lemma D_g_rc m (F : R -> vec) t vF i : g_phys m -> (i < g_np m)%nat -> Fpath m F t vF -> c_reg m (F t) -> g_G m (F t) i <> 0 ->
  is_derive (fun u => g_rc m (F u) i) t (2 * gp_chi (g_p m i) / g_G m (F t) i / g_G m (F t) i * rsum (g_np m) (fun j => g_G_f m (F t) i j * vF j)).
Proof.
  intros H Hi HF Hc HG. unfold g_rc. eapply D_eq; [apply D_div; [apply D_const|apply (D_g_G m F t vF i H Hi HF Hc)|exact HG]|]. cbv beta. field. exact HG.
Qed.
Lemma g_over m i : g_phys m -> (i < g_np m)%nat -> 0 < gp_cp (g_p m i) (gp_rate (g_p m i)) - g_ceq m (gp_rate (g_p m i)).
Proof.
  intros H Hi. destruct (gy_sp m H i Hi) as (_ & Hr & Hn). pose proof (gy_cp m H i _ Hi Hr). destruct (gy_s m H _ (Hn _ Hr)). lra.
Qed.
Lemma D_g_rg m (F : R -> vec) (r N : R -> R) t vF vr vN i : g_phys m -> (i < g_np m)%nat -> Fpath m F t vF -> is_derive r t vr -> is_derive N t vN ->
  c_reg m (F t) -> g_G m (F t) i <> 0 -> r t <> 0 -> N t <> 0 ->
  is_derive (fun u => g_rg m (F u) i (r u) (N u)) t (rsum (g_np m) (fun j => g_rg_f m (F t) i j (r t) (N t) * vF j) +
    (- g_D m i / r t / r t * (g_c m (F t) (gp_rate (g_p m i)) - g_ceq m (gp_rate (g_p m i))) / (gp_cp (g_p m i) (gp_rate (g_p m i)) - g_ceq m (gp_rate (g_p m i))) - g_Ng m (F t) i / N t) * vr +
    (- g_Ng m (F t) i / N t / N t * (g_rc m (F t) i - r t)) * vN).
Proof.
  intros H Hi HF Hr HN Hc HG Hr0 HN0. pose proof (g_over m i H Hi) as Ho.
  destruct (Hc (gp_rate (g_p m i)) (g_rate_in m i H Hi)) as [C1 C2].
  pose proof (D_g_c m F t vF (gp_rate (g_p m i)) H HF C1 C2) as DC. pose proof (D_g_rc m F t vF i H Hi HF Hc HG) as Drc. pose proof (D_g_Ng m F t vF i H Hi HF Hc HG) as DN.
  assert (Ek : rsum (g_np m) (fun j => g_rg_f m (F t) i j (r t) (N t) * vF j) =
    g_D m i / r t / (gp_cp (g_p m i) (gp_rate (g_p m i)) - g_ceq m (gp_rate (g_p m i))) * rsum (g_np m) (fun j => g_c_f m (F t) (gp_rate (g_p m i)) j * vF j) +
    g_Ng m (F t) i / N t * (2 * gp_chi (g_p m i) / g_G m (F t) i / g_G m (F t) i) * rsum (g_np m) (fun j => g_G_f m (F t) i j * vF j) +
    / N t * (g_rc m (F t) i - r t) * rsum (g_np m) (fun j => g_Ng_f m (F t) i j * vF j)).
  { rewrite <- !rsum_scal, <- !rsum_plus. apply rsum_ext. intros j Hj. unfold g_rg_f. cbv zeta. unfold Rdiv. ring. }
  rewrite Ek. clear Ek. unfold g_rg. cbv zeta. eapply D_eq.
  - apply D_plus.
    + apply D_div; [|apply D_const|lra]. apply D_mult; [apply D_div; [apply D_const|exact Hr|exact Hr0]|apply D_minus; [exact DC|apply D_const]].
    + apply D_mult; [apply D_div; [exact DN|exact HN|exact HN0]|apply D_minus; [exact Drc|exact Hr]].
  - cbv beta. field. repeat split; try assumption; lra.
Qed.
Lemma D_g_rr m (F : R -> vec) (r : R -> R) t vF vr i : g_phys m -> (i < g_np m)%nat -> Fpath m F t vF -> is_derive r t vr -> c_reg m (F t) -> r t <> 0 ->
  is_derive (fun u => g_rr m (F u) i (r u)) t (rsum (g_np m) (fun j => g_rr_f m (F t) i j (r t) * vF j) + -2 * g_M m i (g_c m (F t) (gp_rate (g_p m i))) / 3 / r t / r t / r t * vr).
Proof.
  intros H Hi HF Hr Hc Hr0. destruct (gy_k m H) as (Hkb & HNa & HR & HT). destruct (Hc (gp_rate (g_p m i)) (g_rate_in m i H Hi)) as [C1 C2].
  pose proof (D_g_c m F t vF (gp_rate (g_p m i)) H HF C1 C2) as DC.
  assert (Ek : rsum (g_np m) (fun j => g_rr_f m (F t) i j (r t) * vF j) = 1 / 3 / r t / r t * (gp_Cf (g_p m i) * 8 * gp_chi (g_p m i) * gp_Vm (g_p m i) * g_D m i / 9 / g_R m / g_T m) * rsum (g_np m) (fun j => g_c_f m (F t) (gp_rate (g_p m i)) j * vF j)).
  { rewrite <- rsum_scal. apply rsum_ext. intros j Hj. unfold g_rr_f. ring. }
  rewrite Ek. clear Ek. unfold g_rr, g_M. eapply D_eq.
  - apply D_div; [apply D_div; [apply D_div; [|apply D_const|lra]|exact Hr|exact Hr0]|exact Hr|exact Hr0].
    apply D_div; [apply D_div; [apply D_div; [apply D_mult; [apply D_const|exact DC]|apply D_const|lra]|apply D_const|lra]|apply D_const|lra].
  - cbv beta. field. repeat split; try assumption; lra.
Qed.
