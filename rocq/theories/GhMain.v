(** The switch, the Jacobian and whole histories of the model with several precipitates. *)
From Verif Require Import Base Diff.
From Verif Require Import GhModel HcModel HcSpec GhSpec SlipProofs HcProofs HcMain GhProofs.
From Coq Require Import List Lia Lra.

(** *** Switch *)
Lemma scan_stay m F j l acc : (forall s, In s l -> g_x m F s <= fst acc) -> g_scan m F j l acc = acc.
Proof.
  induction l as [|s l IH]; intros H; [reflexivity|]. cbn [g_scan]. destruct (Rlt_dec (fst acc) (g_x m F s)) as [G|G].
  - pose proof (H s (or_introl eq_refl)). lra.
  - apply IH. intros s' Hs'. apply H. right. exact Hs'.
Qed.
Lemma scan_ge m F j l acc : fst acc <= fst (g_scan m F j l acc) /\ forall s, In s l -> g_x m F s <= fst (g_scan m F j l acc).
Proof.
  revert acc. induction l as [|s l IH]; intros acc; [cbn; split; [lra|contradiction]|]. cbn [g_scan].
  destruct (Rlt_dec (fst acc) (g_x m F s)) as [G|G].
  - destruct (IH (g_x m F s, g_c_f m F s j / (g_ceq m s - g_c0 m s))) as [A B]. cbn [fst] in A. split; [lra|]. intros s' [<-|Hs']; [exact A|apply B; exact Hs'].
  - destruct (IH acc) as [A B]. split; [exact A|]. intros s' [<-|Hs']; [lra|apply B; exact Hs'].
Qed.
Lemma scan_at m F j l acc : fst (g_scan m F j l acc) = fst acc \/ exists s, In s l /\ fst (g_scan m F j l acc) = g_x m F s.
Proof.
  revert acc. induction l as [|s l IH]; intros acc; [left; reflexivity|]. cbn [g_scan]. destruct (Rlt_dec (fst acc) (g_x m F s)) as [G|G].
  - right. destruct (IH (g_x m F s, g_c_f m F s j / (g_ceq m s - g_c0 m s))) as [E|(s' & Hs' & E)]; [exists s; split; [left; reflexivity|exact E]|exists s'; split; [right; exact Hs'|exact E]].
  - destruct (IH acc) as [E|(s' & Hs' & E)]; [left; exact E|right; exists s'; split; [right; exact Hs'|exact E]].
Qed.
Lemma scan_max m F j l acc s : In s l -> fst acc < g_x m F s -> (forall s', In s' l -> s' <> s -> g_x m F s' < g_x m F s) ->
  g_scan m F j l acc = (g_x m F s, g_c_f m F s j / (g_ceq m s - g_c0 m s)).
Proof.
  revert acc. induction l as [|s0 l IH]; intros acc Hin Hacc Hmax; [contradiction|]. cbn [g_scan].
  destruct (Nat.eq_dec s0 s) as [->|Hne].
  - destruct (Rlt_dec (fst acc) (g_x m F s)); [|contradiction]. apply scan_stay. intros s' Hs'. cbn [fst].
    destruct (Nat.eq_dec s' s) as [->|Hn]; [lra|]. left. apply Hmax; [right; exact Hs'|exact Hn].
  - destruct Hin as [E|Hin]; [contradiction|]. apply IH; [exact Hin| |intros; apply Hmax; [right; assumption|assumption]].
    destruct (Rlt_dec (fst acc) (g_x m F s0)); [cbn [fst]; apply Hmax; [left; reflexivity|exact Hne]|exact Hacc].
Qed.
Lemma g_switch_range m F i j : 0 <= fst (g_switch m F i j) <= 1.
Proof.
  unfold g_switch. cbv zeta. destruct (scan_ge m F j (gp_sp (g_p m i)) (0, 0)) as [A _]. cbn [fst] in A. destruct (Rlt_dec 1 _); cbn [fst]; lra.
Qed.
Lemma scan_fst m F j j' l acc acc' : fst acc = fst acc' -> fst (g_scan m F j l acc) = fst (g_scan m F j' l acc').
Proof.
  revert acc acc'. induction l as [|s l IH]; intros acc acc' E; [exact E|]. cbn [g_scan]. apply IH. rewrite E. destruct (Rlt_dec _ _); [reflexivity|exact E].
Qed.
Lemma g_switch_fst m F i j : fst (g_switch m F i j) = fst (g_switch m F i i).
Proof.
  unfold g_switch. cbv zeta. rewrite (scan_fst m F j i _ (0, 0) (0, 0) eq_refl). pose proof (scan_fst m F j i (gp_sp (g_p m i)) (0, 0) (0, 0) eq_refl) as E.
  destruct (Rlt_dec 1 _); [reflexivity|exact E].
Qed.
Lemma g_x_one m F s : g_phys m -> (s < g_ns m)%nat -> (1 <= g_x m F s <-> g_c m F s <= g_ceq m s).
Proof.
  intros H Hs. destruct (gy_s m H s Hs) as [A B]. unfold g_x.
  replace ((g_c m F s - g_c0 m s) / (g_ceq m s - g_c0 m s)) with ((g_c0 m s - g_c m F s) * / (g_c0 m s - g_ceq m s)) by (field; lra). split; intros G.
  - apply (Rmult_le_compat_r (g_c0 m s - g_ceq m s)) in G; [|lra]. rewrite Rmult_assoc, Rinv_l in G by lra. lra.
  - apply (Rmult_le_reg_r (g_c0 m s - g_ceq m s)); [lra|]. rewrite Rmult_assoc, Rinv_l by lra. lra.
Qed.
Lemma g_switch_one m F i : g_phys m -> (i < g_np m)%nat -> (fst (g_switch m F i i) = 1 <-> exists s, In s (gp_sp (g_p m i)) /\ g_c m F s <= g_ceq m s).
Proof.
  intros H Hi. destruct (gy_sp m H i Hi) as (_ & _ & Hn). unfold g_switch. cbv zeta. destruct (scan_ge m F i (gp_sp (g_p m i)) (0, 0)) as [_ A]. split.
  - intros E. assert (G : 1 <= fst (g_scan m F i (gp_sp (g_p m i)) (0, 0))) by (destruct (Rlt_dec 1 _) in E; cbn [fst] in E; lra).
    destruct (scan_at m F i (gp_sp (g_p m i)) (0, 0)) as [E0|(s & Hs & Es)]; [cbn [fst] in E0; lra|].
    exists s. split; [exact Hs|]. apply (g_x_one m F s H (Hn s Hs)). lra.
  - intros (s & Hs & Hc). apply (g_x_one m F s H (Hn s Hs)) in Hc. pose proof (A s Hs). destruct (Rlt_dec 1 _); cbn [fst]; lra.
Qed.
Lemma loc_list (t : R) (P : nat -> R -> Prop) l : (forall x, In x l -> locally t (P x)) -> locally t (fun u => forall x, In x l -> P x u).
Proof.
  induction l as [|x l IH]; intros H; [apply filter_forall; contradiction|].
  eapply filter_imp; [|apply (filter_and _ _ (H x (or_introl eq_refl)) (IH (fun y Hy => H y (or_intror Hy))))].
  intros u [A B] y [<-|Hy]; [exact A|apply B; exact Hy].
Qed.
Lemma D_g_x m (F : R -> vec) t vF s : g_phys m -> Fpath m F t vF -> c_reg m (F t) -> (s < g_ns m)%nat ->
  is_derive (fun u => g_x m (F u) s) t (rsum (g_np m) (fun j => g_c_f m (F t) s j / (g_ceq m s - g_c0 m s) * vF j)).
Proof.
  intros H HF Hc Hs. destruct (Hc s Hs) as [C1 C2]. destruct (gy_s m H s Hs). unfold g_x.
  eapply D_eq; [apply D_div; [apply D_minus; [apply (D_g_c m F t vF s H HF C1 C2)|apply D_const]|apply D_const|lra]|].
  cbv beta. rewrite (rsum_ext _ (fun j => g_c_f m (F t) s j / (g_ceq m s - g_c0 m s) * vF j) (fun j => / (g_ceq m s - g_c0 m s) * (g_c_f m (F t) s j * vF j))) by (intros; unfold Rdiv; ring).
  rewrite rsum_scal. field. lra.
Qed.
Lemma D_g_switch m (F : R -> vec) t vF i : g_phys m -> (i < g_np m)%nat -> Fpath m F t vF -> c_reg m (F t) -> g_switch_reg m (F t) i ->
  is_derive (fun u => fst (g_switch m (F u) i i)) t (rsum (g_np m) (fun j => snd (g_switch m (F t) i j) * vF j)).
Proof.
  intros H Hi HF Hc HR. destruct (gy_sp m H i Hi) as (_ & _ & Hn). set (l := gp_sp (g_p m i)) in *.
  destruct HR as [(s & Hs & Hx)|[(s & Hs & Hx & Hmax)|Hneg]].
  - assert (V : forall F' j, 1 < g_x m F' s -> g_switch m F' i j = (1, 0)).
    { intros F' j Hx'. unfold g_switch. cbv zeta. fold l. destruct (scan_ge m F' j l (0, 0)) as [_ A]. pose proof (A s Hs). destruct (Rlt_dec 1 _); [reflexivity|lra]. }
    eapply (D_loc (fun _ => 1)).
    + eapply filter_imp; [|apply (loc_gt _ t _ 1 (D_g_x m F t vF s H HF Hc (Hn s Hs)) Hx)]. intros u Hu. cbv beta in Hu. rewrite V by exact Hu. reflexivity.
    + eapply D_eq; [apply D_const|]. symmetry. rewrite (rsum_ext _ _ (fun _ => 0)); [apply rsum_0|]. intros j Hj. rewrite V by exact Hx. cbn. ring.
  - assert (V : forall F' j, 0 < g_x m F' s < 1 -> (forall s', In s' l -> s' <> s -> g_x m F' s' < g_x m F' s) -> g_switch m F' i j = (g_x m F' s, g_c_f m F' s j / (g_ceq m s - g_c0 m s))).
    { intros F' j Hx' Hm'. unfold g_switch. cbv zeta. fold l. rewrite (scan_max m F' j l (0, 0) s) by (try assumption; cbn; lra). cbn [fst]. destruct (Rlt_dec 1 _); [lra|reflexivity]. }
    eapply (D_loc (fun u => g_x m (F u) s)).
    + pose proof (D_g_x m F t vF s H HF Hc (Hn s Hs)) as Dx.
      assert (LM : locally t (fun u => forall s', In s' l -> s' <> s -> g_x m (F u) s' < g_x m (F u) s)).
      { apply (loc_list t (fun s' u => s' <> s -> g_x m (F u) s' < g_x m (F u) s)). intros s' Hs'. destruct (Nat.eq_dec s' s) as [->|Hne]; [apply filter_forall; intros u E; contradiction|].
        eapply filter_imp; [|apply (loc_gt _ t _ 0 (D_minus _ _ _ _ _ Dx (D_g_x m F t vF s' H HF Hc (Hn s' Hs'))))].
        - intros u Hu _. cbv beta in Hu. lra.
        - cbv beta. pose proof (Hmax s' Hs' Hne). lra. }
      eapply filter_imp; [|apply (filter_and _ _ LM (filter_and _ _ (loc_gt _ t _ 0 Dx (proj1 Hx)) (loc_lt _ t _ 1 Dx (proj2 Hx))))].
      intros u (A & B & C). cbv beta in B, C. rewrite V by (try assumption; lra). reflexivity.
    + eapply D_eq; [apply (D_g_x m F t vF s H HF Hc (Hn s Hs))|]. apply rsum_ext. intros j Hj. rewrite V by assumption. reflexivity.
  - assert (V : forall F' j, (forall s, In s l -> g_x m F' s < 0) -> g_switch m F' i j = (0, 0)).
    { intros F' j Hx'. unfold g_switch. cbv zeta. fold l. rewrite scan_stay by (intros s Hs; cbn; pose proof (Hx' s Hs); lra). cbn [fst]. destruct (Rlt_dec 1 0); [lra|reflexivity]. }
    eapply (D_loc (fun _ => 0)).
    + eapply filter_imp; [|apply (loc_list t (fun s u => g_x m (F u) s < 0) l)].
      * intros u Hu. rewrite V by exact Hu. reflexivity.
      * intros s Hs. apply (loc_lt _ t _ 0 (D_g_x m F t vF s H HF Hc (Hn s Hs)) (Hneg s Hs)).
    + eapply D_eq; [apply D_const|]. symmetry. rewrite (rsum_ext _ _ (fun _ => 0)); [apply rsum_0|]. intros j Hj. rewrite V by exact Hneg. cbn. ring.
Qed.

(** *** The Jacobian *)
Lemma path_rN m (c : R -> vec) t v : path (2 * g_np m) c t v -> forall i, (i < g_np m)%nat ->
  is_derive (fun u => g_r m (c u) i) t (v (2 * i)%nat * gp_rs (g_p m i)) /\ is_derive (fun u => g_N m (c u) i) t (v (2 * i + 1)%nat * gp_Ns (g_p m i)).
Proof.
  intros H i Hi. split.
  - unfold g_r. eapply D_eq; [apply D_mult; [apply (H (2 * i)%nat); lia|apply D_const]|cbv beta; ring].
  - unfold g_N. eapply D_eq; [apply D_mult; [apply (H (2 * i + 1)%nat); lia|apply D_const]|cbv beta; ring].
Qed.
Definition g_vF (m : gmod) (h v : vec) : vec := fun j => g_f_r m h j * (v (2 * j)%nat * gp_rs (g_p m j)) + g_f_N m h j * (v (2 * j + 1)%nat * gp_Ns (g_p m j)).
Lemma path_F m (c : R -> vec) t v : path (2 * g_np m) c t v -> Fpath m (fun u => g_f m (c u)) t (g_vF m (c t) v).
Proof.
  intros H i Hi. destruct (path_rN m c t v H i Hi) as [Dr DN]. unfold g_f, g_vF, g_f_r, g_f_N.
  eapply D_ext; [intros u; cbn [pow]; reflexivity|]. eapply D_eq.
  - apply D_mult; [|exact DN]. apply D_mult; [apply D_const|]. apply D_mult; [exact Dr|apply D_mult; [exact Dr|apply D_mult; [exact Dr|apply D_const]]].
  - cbv beta. field.
Qed.
Lemma rsum_delta n i (a : R) (f : nat -> R) : (i < n)%nat -> rsum n (fun j => (if Nat.eqb i j then a else 0) * f j) = a * f i.
Proof. intros Hi. rewrite (rsum_ext n _ (fun j => (if Nat.eqb j i then a else 0) * f j)) by (intros; rewrite Nat.eqb_sym; reflexivity). apply rsum_one. exact Hi. Qed.
Lemma g_jacobian m : g_phys m -> is_jac (2 * g_np m) (2 * g_np m) (g_reg m) (g_rate m) (fun h x y => g_drate m h x y - g_twice m h x y).
Proof.
  intros H c t v Hc [Hs Hp] x Hx. set (h := c t) in *. pose proof (path_F m c t v Hc) as HF. fold h in HF. set (vF := g_vF m h v) in *.
  assert (Ei : exists i, (i < g_np m)%nat /\ (x = 2 * i \/ x = 2 * i + 1)%nat).
  { exists (Nat.div x 2). pose proof (Nat.div_mod x 2 ltac:(lia)). pose proof (Nat.mod_upper_bound x 2 ltac:(lia)). split; [apply Nat.div_lt_upper_bound; lia|lia]. }
  destruct Ei as (i & Hi & Ex). destruct (Hp i Hi) as (Hr0 & HN0 & HG & HSW). destruct (gy_p m H i Hi) as (_ & _ & _ & _ & _ & _ & Hrs & HNs).
  destruct (path_rN m c t v Hc i Hi) as [Dr DN].
  assert (HcR : c_reg m (g_f m h)) by exact Hs.
  pose proof (D_g_switch m (fun u => g_f m (c u)) t vF i H Hi HF HcR HSW) as DS.
  pose proof (D_g_rg m (fun u => g_f m (c u)) (fun u => g_r m (c u) i) (fun u => g_N m (c u) i) t vF _ _ i H Hi HF Dr DN HcR HG Hr0 HN0) as Drg.
  pose proof (D_g_Ng m (fun u => g_f m (c u)) t vF i H Hi HF HcR HG) as DNg.
  pose proof (D_g_rr m (fun u => g_f m (c u)) (fun u => g_r m (c u) i) t vF _ i H Hi HF Dr HcR Hr0) as Drr.
  fold h in DS, Drg, DNg, Drr.
  set (s := fst (g_switch m (g_f m h) i i)) in *. set (r := g_r m h i) in *. set (N := g_N m h i) in *.
  set (Sv := rsum (g_np m) (fun j => snd (g_switch m (g_f m h) i j) * vF j)) in *.
  set (Gv := rsum (g_np m) (fun j => g_rg_f m (g_f m h) i j r N * vF j)) in *.
  set (Nv := rsum (g_np m) (fun j => g_Ng_f m (g_f m h) i j * vF j)) in *.
  set (Rv := rsum (g_np m) (fun j => g_rr_f m (g_f m h) i j r * vF j)) in *.
  set (og := - g_D m i / r / r * (g_c m (g_f m h) (gp_rate (g_p m i)) - g_ceq m (gp_rate (g_p m i))) / (gp_cp (g_p m i) (gp_rate (g_p m i)) - g_ceq m (gp_rate (g_p m i))) - g_Ng m (g_f m h) i / N) in *.
  set (oN := - g_Ng m (g_f m h) i / N / N * (g_rc m (g_f m h) i - r)) in *.
  set (pr := -2 * g_M m i (g_c m (g_f m h) (gp_rate (g_p m i))) / 3 / r / r / r) in *.
  set (Ai := v (2 * i)%nat * gp_rs (g_p m i)) in *. set (Bi := v (2 * i + 1)%nat * gp_Ns (g_p m i)) in *.
  set (g1 := g_rg m (g_f m h) i r N) in *. set (g2 := g_Ng m (g_f m h) i) in *. set (p1 := g_rr m (g_f m h) i r) in *.
  assert (Emv : mv (2 * g_np m) (fun y z => g_drate m h y z - g_twice m h y z) v x = rsum (g_np m) (fun j => (g_drate m h x (2 * j)%nat - g_twice m h x (2 * j)%nat) * v (2 * j)%nat + (g_drate m h x (2 * j + 1)%nat - g_twice m h x (2 * j + 1)%nat) * v (2 * j + 1)%nat)).
  { unfold mv. apply rsum_pairs. }
  assert (Ep1 : g_M m i (g_c m (g_f m h) (gp_rate (g_p m i))) / 3 / r / r = p1) by reflexivity.
  rewrite Emv. clear Emv. destruct Ex as [-> | ->].
  - destruct (two_even i) as [Ed Em].
    assert (E : rsum (g_np m) (fun j => (g_drate m h (2 * i)%nat (2 * j)%nat - g_twice m h (2 * i)%nat (2 * j)%nat) * v (2 * j)%nat + (g_drate m h (2 * i)%nat (2 * j + 1)%nat - g_twice m h (2 * i)%nat (2 * j + 1)%nat) * v (2 * j + 1)%nat) =
      / gp_rs (g_p m i) * ((1 - s) * (Gv + og * Ai + oN * Bi) + s * (Rv + pr * Ai) + Sv * (p1 - g1))).
    { rewrite (rsum_ext _ _ (fun j => / gp_rs (g_p m i) * (((1 - s) * (g_rg_f m (g_f m h) i j r N * vF j) + s * (g_rr_f m (g_f m h) i j r * vF j) + (p1 - g1) * (snd (g_switch m (g_f m h) i j) * vF j)) +
        ((if Nat.eqb i j then ((1 - s) * og + s * pr) else 0) * (v (2 * j)%nat * gp_rs (g_p m j)) + (if Nat.eqb i j then (1 - s) * oN else 0) * (v (2 * j + 1)%nat * gp_Ns (g_p m j)))))).
      - rewrite rsum_scal. f_equal. rewrite !rsum_plus.
        rewrite !rsum_scal. rewrite !rsum_delta by exact Hi. fold Gv Rv Sv Ai Bi. ring.
      - intros j Hj. destruct (two_even j) as [Ed' Em']. destruct (two_odd j) as [Ed'' Em'']. unfold g_drate, g_twice. cbv zeta. rewrite Ed, Em, Ed', Em', Ed'', Em''. cbn [Nat.eqb].
        unfold g_dmixed. pose proof (g_switch_fst m (g_f m h) i j) as Esw. fold s in Esw. destruct (g_switch m (g_f m h) i j) as [s' ds]. cbn [fst snd] in Esw. subst s'. cbv zeta.
        unfold g_growth, g_ripen, g_dgrowth, g_dripen. cbv zeta. cbn [fst snd]. fold r N g1 g2 p1 og oN pr. unfold vF, g_vF. destruct (Nat.eqb i j); field; assumption. }
    rewrite E. clear E. unfold g_rate. cbv zeta. rewrite Ed, Em. cbn [Nat.eqb]. unfold g_mixed, g_growth, g_ripen. cbv zeta. cbn [fst snd].
    eapply D_eq; [apply D_div; [|apply D_const|exact Hrs]; apply D_plus; [apply D_mult; [apply D_minus; [apply D_const|exact DS]|exact Drg]|apply D_mult; [exact DS|exact Drr]]|].
    cbv beta. fold h r N s g1 g2 p1. fold Gv Sv Rv Nv og oN pr. field. exact Hrs.
  - destruct (two_odd i) as [Ed Em].
    assert (E : rsum (g_np m) (fun j => (g_drate m h (2 * i + 1)%nat (2 * j)%nat - g_twice m h (2 * i + 1)%nat (2 * j)%nat) * v (2 * j)%nat + (g_drate m h (2 * i + 1)%nat (2 * j + 1)%nat - g_twice m h (2 * i + 1)%nat (2 * j + 1)%nat) * v (2 * j + 1)%nat) =
      / gp_Ns (g_p m i) * ((1 - s) * Nv + s * (-3 * N / r * (Rv + pr * Ai) + 3 * N / r / r * p1 * Ai - 3 / r * p1 * Bi) + Sv * (-3 * N / r * p1 - g2))).
    { rewrite (rsum_ext _ _ (fun j => / gp_Ns (g_p m i) * (((1 - s) * (g_Ng_f m (g_f m h) i j * vF j) + s * (-3 * N / r) * (g_rr_f m (g_f m h) i j r * vF j) + (-3 * N / r * p1 - g2) * (snd (g_switch m (g_f m h) i j) * vF j)) +
        ((if Nat.eqb i j then s * (-3 * N / r * pr + 3 * N / r / r * p1) else 0) * (v (2 * j)%nat * gp_rs (g_p m j)) + (if Nat.eqb i j then s * (-3 / r * p1) else 0) * (v (2 * j + 1)%nat * gp_Ns (g_p m j)))))).
      - rewrite rsum_scal. f_equal. rewrite !rsum_plus.
        rewrite !rsum_scal. rewrite !rsum_delta by exact Hi. fold Nv Rv Sv Ai Bi. unfold Rdiv. ring.
      - intros j Hj. destruct (two_even j) as [Ed' Em']. destruct (two_odd j) as [Ed'' Em'']. unfold g_drate, g_twice. cbv zeta. rewrite Ed, Em, Ed', Em', Ed'', Em''. cbn [Nat.eqb].
        unfold g_dmixed. pose proof (g_switch_fst m (g_f m h) i j) as Esw. fold s in Esw. destruct (g_switch m (g_f m h) i j) as [s' ds]. cbn [fst snd] in Esw. subst s'. cbv zeta.
        unfold g_growth, g_ripen, g_dgrowth, g_dripen. cbv zeta. cbn [fst snd]. fold r N s. rewrite Ep1. fold g1 g2 p1 og oN pr. unfold vF, g_vF. destruct (Nat.eqb i j); field; split; assumption. }
    rewrite E. clear E. unfold g_rate. cbv zeta. rewrite Ed, Em. cbn [Nat.eqb]. unfold g_mixed, g_growth, g_ripen. cbv zeta. cbn [fst snd].
    eapply D_eq; [apply D_div; [|apply D_const|exact HNs]; apply D_plus; [apply D_mult; [apply D_minus; [apply D_const|exact DS]|exact DNg]|apply D_mult; [exact DS|apply D_mult; [apply D_div; [apply D_mult; [apply D_const|exact DN]|exact Dr|exact Hr0]|exact Drr]]]|].
    cbv beta. fold h r N s g1 g2 p1. fold Gv Sv Rv Nv og oN pr. field. split; assumption.
Qed.
