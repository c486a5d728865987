From Verif Require Import Base.
From Verif Require Import Diff.
From Verif Require Import NemlMathModel NemlMathSpec InterpModel InterpSpec InterpProofs.
From Verif Require Import SurfModel SurfSpec SurfProofs HardModel HardSpec.

(** ** associative rules *)
Lemma path1 (c : R -> vec) t v : path 1 c t v -> is_derive (fun u => c u 0%nat) t (v 0%nat).
Proof. intros H. apply (H 0%nat). lia. Qed.

Lemma scalar_exact q dq (P : R -> R -> Prop) :
  (forall T a, P T a -> is_derive (fun x => q x T) a (dq a T)) ->
  hard_exact (fun T a => P T (a 0%nat)) (scalar_rule q dq).
Proof.
  intros H T c t v Hc HP i Hi. simpl.
  eapply D_eq. apply (D_comp (fun x => q x T)). apply path1; eassumption. apply H; exact HP.
  cbv beta. unfold mv. simpl. ring.
Qed.

Lemma linear_exact s0 K : hard_exact (fun _ _ => True) (LinearIso s0 K).
Proof.
  apply (scalar_exact _ _ (fun _ _ => True)). intros T a _. eapply D_eq. dall. cbv beta. ring.
Qed.
Lemma interpolated_exact fl : hard_exact (fun _ a => smooth fl (a 0%nat)) (InterpolatedIso fl).
Proof.
  apply (scalar_exact _ _ (fun _ x => smooth fl x)). intros T a Ha. apply D_opp.
  destruct (interp_deriv_ok fl a Ha) as [f [d [Hl [Hd Hf]]]].
  unfold ider. rewrite Hd. apply D_loc with f; [|exact Hf].
  unfold describes in Hl. revert Hl. apply filter_imp. intros u Hu. unfold ival. rewrite Hu. reflexivity.
Qed.
Lemma voce_exact s0 Rv d : hard_exact (fun _ _ => True) (VoceIso s0 Rv d).
Proof.
  apply (scalar_exact _ _ (fun _ _ => True)). intros T a _. eapply D_eq. dall. cbv beta. ring.
Qed.
Lemma powerlaw_exact s0 A n : hard_exact (fun _ a => 0 < a 0%nat) (PowerLawIso s0 A n).
Proof.
  apply (scalar_exact _ _ (fun _ x => 0 < x)). intros T a Ha. destruct (Req_EM_T a 0); [lra|].
  eapply D_eq. apply D_minus. apply D_const. apply D_mult. apply D_const. eapply (D_cpow (fun u => u)). apply D_id. exact Ha.
  cbv beta. ring.
Qed.

Lemma fold_add_shift {A} (f : A -> R) l z : fold_left (fun acc r => acc + f r) l z = z + fold_left (fun acc r => acc + f r) l 0.
Proof. revert z. induction l as [|x l IH]; intros z; simpl; [ring|]. rewrite (IH (z + f x)), (IH (0 + f x)). ring. Qed.

Lemma combined_iso_exact (rules : list hardrule) (P : R -> vec -> Prop) :
  List.Forall (fun r => hr_n r = 1%nat /\ hard_exact P r) rules -> hard_exact P (CombinedIso rules).
Proof.
  intros H T c t v Hc HP i Hi. simpl.
  induction H as [|r rules [Hn Hr] _ IH]; simpl.
  - eapply D_eq. apply D_const. unfold mv. simpl. ring.
  - apply D_ext with (fun u => hr_q r (c u) T 0%nat + fold_left (fun acc r0 => acc + hr_q r0 (c u) T 0%nat) rules 0).
    { intros u. rewrite (fold_add_shift (fun r0 => hr_q r0 (c u) T 0%nat) rules (0 + _)). ring. }
    specialize (Hr T). rewrite Hn in Hr.
    eapply D_eq. apply D_plus. apply (Hr c t v Hc HP 0%nat); lia. exact (IH Hc Hi).
    cbv beta. rewrite (fold_add_shift (fun r0 => hr_dq r0 (c t) T 0%nat 0%nat) rules (0 + _)).
    unfold mv. simpl. ring.
Qed.

Lemma linkin_exact H : hard_exact (fun _ _ => True) (LinearKin H).
Proof.
  intros T c t v Hc _ i Hi. simpl.
  eapply D_eq. apply D_mult. apply D_const. apply (Hc i Hi).
  cbv beta. unfold mv.
  transitivity (rsum 6 (fun j => delta i j * (- H T * v j))).
  - rewrite rsum_delta by assumption. ring.
  - apply rsum_ext. intros j Hj. unfold delta. destruct (Nat.eqb i j); ring.
Qed.

Lemma path_drop n m (c : R -> vec) t v : path (n + m) c t v -> path m (fun u => drop n (c u)) t (drop n v).
Proof. intros H i Hi. apply H. lia. Qed.
Lemma path_le n m (c : R -> vec) t v : (n <= m)%nat -> path m c t v -> path n c t v.
Proof. intros L H i Hi. apply H. lia. Qed.

Lemma combined_exact iso kin (P Q : R -> vec -> Prop) : hard_exact P iso -> hard_exact Q kin ->
  hard_exact (fun T a => P T a /\ Q T (drop (hr_n iso) a)) (CombinedHard iso kin).
Proof.
  intros H1 H2 T c t v Hc [HP HQ] i Hi. simpl in *.
  unfold mv. rewrite rsum_app.
  destruct (Nat.ltb_spec i (hr_n iso)) as [L|L].
  - eapply D_eq. apply (H1 T c t v (path_le _ _ _ _ _ (Nat.le_add_r _ _) Hc) HP i L).
    cbv beta. unfold mv.
    rewrite (rsum_ext (hr_n kin) _ (fun _ => 0)), rsum_0, Rplus_0_r.
    + apply rsum_ext. intros j Hj. destruct (Nat.ltb_spec j (hr_n iso)); [reflexivity|lia].
    + intros j Hj. destruct (Nat.ltb_spec (hr_n iso + j) (hr_n iso)); [lia|ring].
  - eapply D_eq. apply (H2 T (fun u => drop (hr_n iso) (c u)) t _ (path_drop _ _ _ _ _ Hc) HQ (i - hr_n iso)%nat). lia.
    cbv beta. unfold mv.
    rewrite (rsum_ext (hr_n iso) _ (fun _ => 0)), rsum_0, Rplus_0_l.
    + apply rsum_ext. intros j Hj. destruct (Nat.ltb_spec (hr_n iso + j) (hr_n iso)); [lia|].
      replace (hr_n iso + j - hr_n iso)%nat with j by lia. reflexivity.
    + intros j Hj. destruct (Nat.ltb_spec j (hr_n iso)); [ring|lia].
Qed.

(** The power law at zero plastic strain: with exponent one the true slope is -A. *)
Lemma powerlaw_zero_refuted : ~ hard_exact (fun _ a => 0 <= a 0%nat) (PowerLawIso (fun _ => 0) (fun _ => 1) (fun _ => 2)).
Proof.
  intros H. assert (E := H 0 (fun u _ => u) 0 (fun _ => 1) ltac:(intros i Hi; apply D_id) (Rle_refl 0) 0%nat ltac:(simpl; lia)).
  cbv beta in E. simpl in E.
  assert (L : is_derive (fun u => - 0 - 1 * cpow u 2) 0 (mv 1 (fun _ _ => - 10 ^ 15) (fun _ => 1) 0%nat)).
  { eapply D_eq. exact E. unfold mv. simpl. destruct (Req_EM_T 0 0); [simpl; reflexivity|lra]. }
  clear E.
  (* the one sided difference quotient is enough *)
  assert (M : mv 1 (fun _ _ => - 10 ^ 15) (fun _ => 1) 0%nat = - 10 ^ 15) by (unfold mv; simpl; ring).
  rewrite M in L. clear M.
  apply is_derive_Reals in L. destruct (L 1 ltac:(lra)) as [d Hd].
  set (h := Rmin (d / 2) (1/2)).
  assert (Hh : 0 < h) by (unfold h; apply Rmin_glb_lt; [destruct d as [dd Hdd]; simpl; lra|lra]).
  assert (Hh2 : h <= 1/2) by apply Rmin_r.
  assert (Hh3 : h <= d / 2) by apply Rmin_l.
  specialize (Hd h ltac:(lra)).
  assert (Hhd : Rabs h < d). { rewrite Rabs_pos_eq by lra. destruct d as [dd Hdd]; simpl in *; lra. }
  specialize (Hd Hhd). rewrite Rplus_0_l in Hd. rewrite (cpow_pos h) in Hd by assumption.
  replace (Rpower h 2) with (h * h) in Hd.
  2:{ replace 2 with (1 + 1) by ring. rewrite Rpower_plus, Rpower_1 by assumption. reflexivity. }
  replace (cpow 0 2) with 0 in Hd.
  2:{ unfold cpow. destruct (Rlt_dec 0 0); [lra|]. destruct (Req_EM_T 2 0); [lra|reflexivity]. }
  replace ((- 0 - 1 * (h * h) - (- 0 - 1 * 0)) / h - - 10 ^ 15) with (10 ^ 15 - h) in Hd by (field; lra).
  rewrite Rabs_pos_eq in Hd; simpl in *; lra.
Qed.

(** ** gamma models *)
Lemma const_gamma_exact g : gamma_exact (ConstantGamma g).
Proof. intros T ep. simpl. apply D_const. Qed.
Lemma sat_gamma_exact gs g0 b : gamma_exact (SatGamma gs g0 b).
Proof. intros T ep. simpl. eapply D_eq. dall. cbv beta. ring. Qed.

(** ** sums over the block structure *)
Lemma rsum_blocks6 n f : rsum (n * 6) f = rsum n (fun i => rsum 6 (fun j => f (i * 6 + j)%nat)).
Proof.
  induction n as [|n IH]; [reflexivity|].
  replace (S n * 6)%nat with (n * 6 + 6)%nat by lia. rewrite rsum_app, IH. reflexivity.
Qed.
Lemma rsum_S n f : rsum (S n) f = f 0%nat + rsum n (fun i => f (S i)).
Proof. induction n as [|n IH]; [simpl; ring|]. change (rsum (S (S n)) f) with (rsum (S n) f + f (S n)). rewrite IH. simpl. ring. Qed.
Lemma divb i j : (j < 6)%nat -> ((i * 6 + j) / 6)%nat = i.
Proof. intros H. rewrite Nat.div_add_l by lia. rewrite Nat.div_small by assumption. lia. Qed.
Lemma modb i j : (j < 6)%nat -> ((i * 6 + j) mod 6)%nat = j.
Proof. intros H. rewrite Nat.add_comm, Nat.mod_add by lia. apply Nat.mod_small. assumption. Qed.
Lemma rsplit r : r = (r / 6 * 6 + r mod 6)%nat.
Proof. rewrite Nat.mul_comm. apply Nat.div_mod. lia. Qed.
Lemma mod6 r : (r mod 6 < 6)%nat.
Proof. apply Nat.mod_upper_bound. lia. Qed.
Lemma div6 r n : (r < n * 6)%nat -> (r / 6 < n)%nat.
Proof. intros H. apply Nat.div_lt_upper_bound; lia. Qed.

Lemma back_total p al : ch_back p al = total_backstress (ch_nb p) al.
Proof.
  apply FunctionalExtensionality.functional_extensionality. intros j. unfold ch_back, total_backstress, backstress_i.
  apply rsum_ext. intros i Hi. f_equal. lia.
Qed.
Lemma block_i al i : ch_block al i = backstress_i al i.
Proof.
  apply FunctionalExtensionality.functional_extensionality. intros j. unfold ch_block, backstress_i. f_equal. lia.
Qed.

Lemma path_back p (al : R -> vec) t v : path (S (ch_nb p * 6)) al t v -> path 6 (fun u => ch_back p (al u)) t (ch_back p v).
Proof.
  intros H j Hj. unfold ch_back. apply (D_rsum (ch_nb p) (fun u i => al u (S (i * 6 + j)))).
  intros i Hi. apply H. lia.
Qed.
Definition qx (p : chparams) (al : vec) : vec := fun k => match k with O => 0 | S j => ch_back p al j end.
Lemma path_qx p (al : R -> vec) t v : path (S (ch_nb p * 6)) al t v -> path 7 (fun u => qx p (al u)) t (qx p v).
Proof.
  intros H k Hk. destruct k as [|j]; simpl.
  - apply D_const.
  - apply (path_back p al t v H). lia.
Qed.
Lemma dom_qx p T s al : ch_domain (ch_nb p) T s al -> kin_domain 0 s (qx p al).
Proof. intros H. unfold ch_domain in H. rewrite <- back_total in H. exact H. Qed.

Lemma ch_normal_path p (s al : R -> vec) t vs va T : path 6 s t vs -> path (S (ch_nb p * 6)) al t va ->
  ch_domain (ch_nb p) T (s t) (al t) ->
  path 6 (fun u => normalize_vec 6 (ch_rel p (s u) (al u))) t
    (fun j => rsum 6 (fun m => (delta j m - iv j * jv m - normalize_vec 6 (ch_rel p (s t) (al t)) j * normalize_vec 6 (ch_rel p (s t) (al t)) m) / norm2 6 (ch_rel p (s t) (al t)) * vs m)
     + rsum 6 (fun m => (delta j m - normalize_vec 6 (ch_rel p (s t) (al t)) j * normalize_vec 6 (ch_rel p (s t) (al t)) m) / norm2 6 (ch_rel p (s t) (al t)) * ch_back p va m)).
Proof.
  intros Hs Ha HP.
  exact (normal_jac _ _ _ _ _ Hs (path_qx p al t va Ha) (dom_qx _ _ _ _ HP)).
Qed.

Lemma ch_div_big nv x : eps < nv -> ch_div nv x = x / nv.
Proof. intros H. pose proof eps_pos. unfold ch_div. destruct (Req_EM_T nv 0); [lra|reflexivity]. Qed.

(** sum over all backstress columns of a function of the component *)
Lemma rsum_cols n (k : nat -> R) (v : vec) :
  rsum (n * 6) (fun r => k (r mod 6)%nat * v (S r)) = rsum 6 (fun m => k m * rsum n (fun i => v (S (i * 6 + m)))).
Proof.
  rewrite rsum_blocks6.
  transitivity (rsum n (fun i => rsum 6 (fun m => k m * v (S (i * 6 + m))))).
  - apply rsum_ext. intros i Hi. apply rsum_ext. intros j Hj. rewrite modb by assumption. reflexivity.
  - rewrite rsum_swap. apply rsum_ext. intros m Hm. rewrite <- rsum_scal. reflexivity.
Qed.

Lemma ch_rows_exact p T (s al : R -> vec) t vs va r : (forall i, gamma_exact (ch_g p i)) ->
  path 6 s t vs -> path (S (ch_nb p * 6)) al t va -> ch_domain (ch_nb p) T (s t) (al t) -> (r < ch_nb p * 6)%nat ->
  forall h0 d00,
  is_derive (fun u => ch_h p h0 (s u) (al u) T (S r)) t
    (mv 6 (ch_hs p (s t) (al t) T) vs (S r) + mv (S (ch_nb p * 6)) (ch_ha p d00 (s t) (al t) T) va (S r)).
Proof.
  intros Hg Hs Ha HP Hr h0 d00.
  assert (Hn : eps < norm2 6 (ch_rel p (s t) (al t))).
  { destruct HP as [_ HP]. rewrite <- back_total in HP. exact HP. }
  assert (Hnorm := ch_normal_path p s al t vs va T Hs Ha HP (r mod 6)%nat (mod6 r)).
  assert (H0 := Ha 0%nat ltac:(lia)). assert (HS := Ha (S r) ltac:(lia)).
  cbv beta in *. cbv beta iota zeta delta [ch_h].
  eapply D_eq.
  - apply D_minus.
    + apply D_mult. apply D_const. exact Hnorm.
    + apply D_mult. apply D_mult. apply D_const.
      apply (D_comp (fun e => gm (ch_g p (r / 6)) e T)). exact H0. apply Hg. exact HS.
  - cbv beta. unfold mv. rewrite (rsum_S (ch_nb p * 6)). cbv beta iota zeta delta [ch_hs ch_ha].
    set (n := normalize_vec 6 (ch_rel p (s t) (al t))). set (nv := norm2 6 (ch_rel p (s t) (al t))) in *.
    set (j := (r mod 6)%nat). set (c := ch_c p (r / 6) T).
    set (g := gm (ch_g p (r / 6)) (al t 0%nat) T). set (dg := gm_d (ch_g p (r / 6)) (al t 0%nat) T).
    assert (E1 : rsum 6 (fun j0 => - 2 / 3 * c * ch_div nv (delta j j0 - iv j * jv j0 - n j * n j0) * vs j0)
      = - 2 / 3 * c * rsum 6 (fun m => (delta j m - iv j * jv m - n j * n m) / nv * vs m)).
    { rewrite <- rsum_scal. apply rsum_ext. intros m Hm. rewrite ch_div_big by assumption. ring. }
    assert (E2 : rsum (ch_nb p * 6) (fun r' => (0 - (if Nat.eqb r r' then sqrt (2 / 3) * g else 0)
                - 2 / 3 * c * ch_div nv (delta j (r' mod 6) - n j * n (r' mod 6)%nat)) * va (S r'))
      = - (sqrt (2 / 3) * g) * va (S r) - 2 / 3 * c * rsum 6 (fun m => (delta j m - n j * n m) / nv * ch_back p va m)).
    { transitivity (rsum (ch_nb p * 6) (fun r' => delta r r' * (- (sqrt (2 / 3) * g) * va (S r')))
        - 2 / 3 * c * rsum (ch_nb p * 6) (fun r' => (fun m => (delta j m - n j * n m) / nv) (r' mod 6)%nat * va (S r'))).
      - rewrite <- rsum_scal, <- rsum_minus. apply rsum_ext. intros r' Hr'. rewrite ch_div_big by assumption.
        unfold delta. destruct (Nat.eqb r r'); ring.
      - rewrite rsum_delta by assumption. rewrite (rsum_cols (ch_nb p) (fun m => (delta j m - n j * n m) / nv) va). reflexivity. }
    rewrite E1, E2. set (S1 := rsum 6 (fun m => (delta j m - iv j * jv m - n j * n m) / nv * vs m)).
    set (S2 := rsum 6 (fun m => (delta j m - n j * n m) / nv * ch_back p va m)). field.
Qed.

(** q *)
Lemma ch_q_exact p q0 dq0 (P : R -> vec -> Prop) :
  (forall T (al : R -> vec) t va, path (S (ch_nb p * 6)) al t va -> P T (al t) -> is_derive (fun u => q0 (al u) T) t (dq0 (al t) T * va 0%nat)) ->
  forall T, is_jac 7 (S (ch_nb p * 6)) (P T) (fun al => ch_q p (q0 al T) al) (fun al => ch_dq p (dq0 al T)).
Proof.
  intros H T al t va Ha HP k Hk. unfold mv. rewrite (rsum_S (ch_nb p * 6)). destruct k as [|j]; simpl ch_q; simpl ch_dq.
  - eapply D_eq. apply (H T al t va Ha HP). cbv beta. simpl ch_dq.
    transitivity (dq0 (al t) T * va 0%nat + rsum (ch_nb p * 6) (fun _ => 0)).
    rewrite rsum_0. ring. f_equal. apply rsum_ext. intros; ring.
  - eapply D_eq. apply (path_back p al t va Ha j). lia.
    rewrite Rmult_0_l, Rplus_0_l.
    transitivity (rsum (ch_nb p * 6) (fun r => (fun m => delta j m) (r mod 6)%nat * va (S r))).
    + rewrite (rsum_cols (ch_nb p) (fun m => delta j m) va). rewrite (rsum_delta 6 j (fun m => rsum (ch_nb p) (fun i => va (S (i * 6 + m))))) by lia. reflexivity.
    + apply rsum_ext. intros r Hr. unfold delta. rewrite (Nat.eqb_sym j). reflexivity.
Qed.

(** time terms *)
Lemma path_block p (al : R -> vec) t va i : path (S (ch_nb p * 6)) al t va -> (i < ch_nb p)%nat ->
  path 6 (fun u => ch_block (al u) i) t (ch_block va i).
Proof. intros H Hi j Hj. apply H. assert (i * 6 + j < ch_nb p * 6)%nat by nia. lia. Qed.

(** sum over the columns of the same block *)
Lemma rsum_own n r (k : nat -> R) (v : vec) : (r < n * 6)%nat ->
  rsum (n * 6) (fun r' => (if Nat.eqb (r / 6) (r' / 6) then k (r' mod 6)%nat else 0) * v (S r'))
  = rsum 6 (fun m => k m * v (S (r / 6 * 6 + m))).
Proof.
  intros Hr. rewrite rsum_blocks6.
  transitivity (rsum n (fun i => delta (r / 6) i * rsum 6 (fun m => k m * v (S (i * 6 + m))))).
  - apply rsum_ext. intros i Hi. rewrite <- rsum_scal. apply rsum_ext. intros j Hj. rewrite divb, modb by assumption.
    unfold delta. destruct (Nat.eqb (r / 6) i); ring.
  - rewrite rsum_delta by (apply div6; assumption). reflexivity.
Qed.

Lemma cpow_0_exp x : cpow x 0 = 1.
Proof.
  unfold cpow. destruct (Rlt_dec 0 x). apply Rpower_O; assumption.
  destruct (Req_EM_T 0 0); [reflexivity|lra].
Qed.

(** k(|X|) X_j with k = cpow (z |X|) (a-1), z > 0 *)
Lemma recovery_diff (z a B : R) (X : R -> vec) t w j : 0 < z -> path 6 X t w -> (j < 6)%nat ->
  a = 1 \/ B = 0 \/ eps < norm2 6 (X t) ->
  is_derive (fun u => B * cpow (z * norm2 6 (X u)) (a - 1) * X u j) t
    (rsum 6 (fun m => B * cpow (z * norm2 6 (X t)) (a - 1) * (delta j m + (a - 1) * (normalize_vec 6 (X t) j * normalize_vec 6 (X t) m)) * w m)).
Proof.
  intros Hz HX Hj [->|[->|Hn]].
  - replace (1 - 1) with 0 by ring.
    apply D_ext with (fun u => B * X u j). { intros u. rewrite cpow_0_exp. ring. }
    eapply D_eq. apply D_mult. apply D_const. apply (HX j Hj). cbv beta.
    transitivity (rsum 6 (fun m => delta j m * (B * w m))). rewrite rsum_delta by assumption. ring.
    apply rsum_ext. intros m Hm. rewrite cpow_0_exp. ring.
  - apply D_ext with (fun u => 0). { intros u. ring. }
    eapply D_eq. apply D_const. 
    transitivity (rsum 6 (fun m => 0)). rewrite rsum_0. ring. apply rsum_ext. intros m Hm. ring.
  - pose proof eps_pos as He. assert (Hd := D_norm2 6 X t w HX ltac:(lra)).
    set (nv := norm2 6 (X t)) in *.
    eapply D_eq. apply D_mult. apply D_mult. apply D_const. apply D_cpow. apply D_mult. apply D_const. exact Hd.
    cbv beta. apply Rmult_lt_0_compat; [assumption|]. change (0 < nv). lra. apply (HX j Hj).
    cbv beta. rewrite normalize_big by assumption. fold nv.
    assert (Hp : 0 < z * nv) by (apply Rmult_lt_0_compat; lra).
    replace (cpow (z * nv) (a - 1 - 1)) with (cpow (z * nv) (a - 1) / (z * nv)).
    2:{ rewrite !cpow_pos by assumption. unfold Rminus at 2. rewrite Rpower_plus, Rpower_Ropp, Rpower_1 by assumption. reflexivity. }
    set (c := cpow (z * nv) (a - 1)).
    transitivity (rsum 6 (fun m => delta j m * (B * c * w m)) + B * c * (a - 1) * (X t j / nv) * (dot 6 (X t) w / nv)).
    { rewrite rsum_delta by assumption. field. split; lra. }
    replace (dot 6 (X t) w / nv) with (rsum 6 (fun m => X t m * w m * / nv)) by apply rsum_scal_r.
    rewrite <- rsum_scal, <- rsum_plus. apply rsum_ext. intros m Hm. field. lra.
Qed.

Lemma vzero_mv n (v : vec) k : mv n (fun _ _ => 0) v k = 0.
Proof. unfold mv. transitivity (rsum n (fun _ => 0)); [apply rsum_ext; intros; ring|apply rsum_0]. Qed.

Lemma zero_row n f (v : vec) : (forall r, f r = 0) -> rsum n (fun r => f r * v r) = 0.
Proof. intros H. transitivity (rsum n (fun _ => 0)); [apply rsum_ext; intros; rewrite H; ring|apply rsum_0]. Qed.

Lemma time_dom_conv p T s al i : ch_time_domain p T s al -> (i < ch_nb p)%nat ->
  ch_a p i T = 1 \/ ch_A p i T = 0 \/ eps < norm2 6 (ch_block al i).
Proof. intros H Hi. rewrite block_i. destruct (H i Hi) as [A|[[A _]|A]]; auto. Qed.

Lemma ch_time_row p T (s al : R -> vec) t va r :
  path (S (ch_nb p * 6)) al t va -> ch_time_domain p T (s t) (al t) -> (r < ch_nb p * 6)%nat ->
  is_derive (fun u => ch_ht p (al u) T (S r)) t (mv (S (ch_nb p * 6)) (ch_hta p (al t) T) va (S r)).
Proof.
  intros Ha HP Hr. set (i := (r / 6)%nat). set (j := (r mod 6)%nat).
  assert (Hi : (i < ch_nb p)%nat) by (apply div6; assumption).
  assert (HX := path_block p al t va i Ha Hi).
  assert (HD := recovery_diff 1 (ch_a p i T) (- ch_A p i T * sqrt (3 / 2)) _ t _ j Rlt_0_1 HX (mod6 r)).
  assert (Hdom : ch_a p i T = 1 \/ - ch_A p i T * sqrt (3 / 2) = 0 \/ eps < norm2 6 (ch_block (al t) i)).
  { destruct (time_dom_conv p T _ _ i HP Hi) as [A|[A|A]]; auto. right. left. rewrite A. ring. }
  specialize (HD Hdom).
  assert (Er : ch_block (al t) i j = al t (S r)). { unfold ch_block, i, j. rewrite <- rsplit. reflexivity. }
  eapply D_eq. 
  - eapply D_ext. 2: exact HD. intros u. cbv beta. cbv beta iota zeta delta [ch_ht]. fold i. rewrite Rmult_1_l.
    replace (ch_block (al u) i j) with (al u (S r)). reflexivity. unfold ch_block, i, j. rewrite <- rsplit. reflexivity.
  - unfold mv. rewrite (rsum_S (ch_nb p * 6)). cbv beta iota zeta delta [ch_hta]. rewrite Rmult_0_l, Rplus_0_l.
    set (X := ch_block (al t) i). fold i. fold j. fold X.
    refine (eq_trans _ (eq_sym (rsum_own (ch_nb p) r (fun m => - ch_A p i T * sqrt (3 / 2) * cpow (norm2 6 X) (ch_a p i T - 1) * (delta j m + (ch_a p i T - 1) * (normalize_vec 6 X j * normalize_vec 6 X m))) va Hr))).
    apply rsum_ext. intros m Hm. rewrite Rmult_1_l. reflexivity.
Qed.

Lemma cv_time_row v p T (s al : R -> vec) t va r :
  path (S (ch_nb p * 6)) al t va -> ch_time_domain p T (s t) (al t) -> (r < ch_nb p * 6)%nat ->
  is_derive (fun u => cv_ht v p (al u) T (S r)) t (mv (S (ch_nb p * 6)) (cv_hta v p (al t) T) va (S r)).
Proof.
  intros Ha HP Hr. set (i := (r / 6)%nat). set (j := (r mod 6)%nat).
  assert (Hi : (i < ch_nb p)%nat) by (apply div6; assumption).
  assert (HX := path_block p al t va i Ha Hi).
  assert (Hz : 0 < sqrt (3 / 2)) by (apply sqrt_lt_R0; lra).
  assert (HD := recovery_diff (sqrt (3 / 2)) (ch_a p i T) (- ch_A p i T) _ t _ j Hz HX (mod6 r)).
  assert (Hdom : ch_a p i T = 1 \/ - ch_A p i T = 0 \/ eps < norm2 6 (ch_block (al t) i)).
  { destruct (time_dom_conv p T _ _ i HP Hi) as [A|[A|A]]; auto. right. left. rewrite A. ring. }
  specialize (HD Hdom).
  eapply D_eq. 
  - eapply D_ext. 2: exact HD. intros u. cbv beta. cbv beta iota zeta delta [cv_ht]. fold i.
    replace (ch_block (al u) i j) with (al u (S r)). reflexivity. unfold ch_block, i, j. rewrite <- rsplit. reflexivity.
  - unfold mv. rewrite (rsum_S (ch_nb p * 6)). cbv beta iota zeta delta [cv_hta]. rewrite Rmult_0_l, Rplus_0_l.
    set (X := ch_block (al t) i). fold i. fold j. fold X.
    refine (eq_trans _ (eq_sym (rsum_own (ch_nb p) r (fun m => - ch_A p i T * cpow (sqrt (3 / 2) * norm2 6 X) (ch_a p i T - 1) * (delta j m + (ch_a p i T - 1) * (normalize_vec 6 X j * normalize_vec 6 X m))) va Hr))).
    reflexivity.
Qed.

(** temperature terms *)
Lemma ch_temp_row p T (al : R -> vec) t va r :
  path (S (ch_nb p * 6)) al t va -> (r < ch_nb p * 6)%nat ->
  is_derive (fun u => ch_hT p (al u) T (S r)) t (mv (S (ch_nb p * 6)) (ch_hTa p T) va (S r)).
Proof.
  intros Ha Hr. assert (HS := Ha (S r) ltac:(lia)). cbv beta in HS.
  set (k := if Req_EM_T (ch_c p (r / 6) T) 0 then 0 else - sqrt (2 / 3) * ch_dc p (r / 6) T / ch_c p (r / 6) T).
  apply D_ext with (fun u => k * al u (S r)).
  { intros u. unfold k, ch_hT. destruct (Req_EM_T (ch_c p (r / 6) T) 0); [ring|reflexivity]. }
  eapply D_eq. apply D_mult. apply D_const. exact HS. cbv beta.
  unfold mv. rewrite (rsum_S (ch_nb p * 6)). cbv beta iota zeta delta [ch_hTa]. rewrite !Rmult_0_l, !Rplus_0_l. fold k.
  transitivity (rsum (ch_nb p * 6) (fun r' => delta r r' * (k * va (S r')))).
  rewrite rsum_delta by assumption. ring. apply rsum_ext. intros r' Hr'. unfold delta. destruct (Nat.eqb r r'); ring.
Qed.

Lemma mv_row0 n (M : mat) (v : vec) : (forall m, M 0%nat (S m) = 0) -> mv (S n) M v 0%nat = M 0%nat 0%nat * v 0%nat.
Proof.
  intros H. unfold mv. rewrite rsum_S.
  transitivity (M 0%nat 0%nat * v 0%nat + rsum n (fun _ => 0)).
  f_equal. apply rsum_ext. intros; rewrite H; ring. rewrite rsum_0. ring.
Qed.

Lemma chaboche_q iso p P : hr_n iso = 1%nat -> hard_exact P iso -> na_q_exact P (Chaboche iso p).
Proof.
  intros Hn Hi. refine (ch_q_exact p (fun al T => hr_q iso al T 0%nat) (fun al T => hr_dq iso al T 0%nat 0%nat) P _).
  intros T al t va Ha HP. specialize (Hi T). rewrite Hn in Hi.
  assert (L1 : (1 <= S (ch_nb p * 6))%nat) by lia.
  eapply D_eq. apply (Hi al t va (path_le 1 _ _ _ _ L1 Ha) HP 0%nat). lia. unfold mv. simpl. ring.
Qed.
Lemma chaboche_h iso p : (forall i, gamma_exact (ch_g p i)) -> na_h_exact (ch_domain (ch_nb p)) (Chaboche iso p).
Proof.
  intros Hg T s al t vs va Hs Ha HP k Hk. simpl in *. unfold vadd. destruct k as [|r].
  - cbv beta iota delta [ch_h ch_ht ch_hT]. eapply D_eq. apply D_const. rewrite (mv_row0 (ch_nb p * 6)) by reflexivity. unfold mv. simpl. ring.
  - apply ch_rows_exact; try assumption. lia.
Qed.
Lemma chaboche_time iso p : na_time_exact (ch_time_domain p) (Chaboche iso p).
Proof.
  intros T s al t vs va Hs Ha HP k Hk. simpl in *. unfold vadd. rewrite vzero_mv, Rplus_0_l. destruct k as [|r].
  - cbv beta iota delta [ch_h ch_ht ch_hT]. eapply D_eq. apply D_const. rewrite (mv_row0 (ch_nb p * 6)) by reflexivity. simpl. ring.
  - apply ch_time_row with (s := s); try assumption. lia.
Qed.
Lemma chaboche_temp iso p : na_temp_exact (fun _ _ _ => True) (Chaboche iso p).
Proof.
  intros T s al t vs va Hs Ha HP k Hk. simpl in *. unfold vadd. rewrite vzero_mv, Rplus_0_l. destruct k as [|r].
  - cbv beta iota delta [ch_h ch_ht ch_hT]. eapply D_eq. apply D_const. rewrite (mv_row0 (ch_nb p * 6)) by reflexivity. simpl. ring.
  - apply ch_temp_row; try assumption. lia.
Qed.

Lemma voce_q v p : na_q_exact (fun _ _ => True) (ChabocheVoceRecovery v p).
Proof.
  refine (ch_q_exact p (fun al T => - (cv_s0 v T + al 0%nat)) (fun al T => -1) (fun _ _ => True) _).
  intros T al t va Ha _. assert (H0 := Ha 0%nat ltac:(lia)). cbv beta in H0.
  eapply D_eq. dall. cbv beta. ring.
Qed.
Lemma voce_h v p : (forall i, gamma_exact (ch_g p i)) -> (forall T, cv_Rmax v T <> 0) ->
  na_h_exact (ch_domain (ch_nb p)) (ChabocheVoceRecovery v p).
Proof.
  intros Hg HR T s al t vs va Hs Ha HP k Hk. simpl in *. unfold vadd. destruct k as [|r].
  - assert (H0 := Ha 0%nat ltac:(lia)). cbv beta in H0. simpl.
    eapply D_eq. dall. apply HR. rewrite (mv_row0 (ch_nb p * 6)) by reflexivity. unfold mv. simpl. field. apply HR.
  - assert (Hrow := ch_rows_exact p T s al t vs va r Hg Hs Ha HP ltac:(lia) 0 (- cv_theta0 v T / cv_Rmax v T * sqrt (2 / 3))).
    exact Hrow.
Qed.
Lemma voce_temp v p : na_temp_exact (fun _ _ _ => True) (ChabocheVoceRecovery v p).
Proof.
  intros T s al t vs va Hs Ha HP k Hk. simpl in *. unfold vadd. rewrite vzero_mv, Rplus_0_l. destruct k as [|r].
  - cbv beta iota delta [ch_h ch_ht ch_hT]. eapply D_eq. apply D_const. rewrite (mv_row0 (ch_nb p * 6)) by reflexivity. simpl. ring.
  - apply ch_temp_row; try assumption. lia.
Qed.
(** above the minimum strength the recovery derivative is right *)
Lemma voce_time_above v p : (forall T, 0 <= cv_r1 v T * cv_r2 v T) ->
  na_time_exact (fun T s a => ch_time_domain p T s a /\ cv_Rmin v T < a 0%nat) (ChabocheVoceRecovery v p).
Proof.
  intros Hr T s al t vs va Hs Ha [HP Hm] k Hk. simpl in *. unfold vadd. rewrite vzero_mv, Rplus_0_l. destruct k as [|r].
  - assert (H0 := Ha 0%nat ltac:(lia)). cbv beta in H0. rewrite (mv_row0 (ch_nb p * 6)) by reflexivity. simpl.
    set (m := cv_Rmin v T) in *. set (r1 := cv_r1 v T). set (r2 := cv_r2 v T).
    apply D_loc with (fun u => r1 * (m - al u 0%nat) * cpow (al u 0%nat - m) (r2 - 1)).
    { generalize (loc_gt _ _ _ _ H0 Hm). apply filter_imp. intros u Hu. rewrite Rabs_left by lra.
      replace (- (m - al u 0%nat)) with (al u 0%nat - m) by ring. reflexivity. }
    eapply D_eq. apply D_mult. apply D_mult. apply D_const. apply D_minus. apply D_const. exact H0.
    apply D_cpow. apply D_minus. exact H0. apply D_const. cbv beta; lra.
    cbv beta. unfold copysign. destruct (Rlt_dec (m - al t 0%nat) 0); [|lra].
    rewrite (Rabs_left (m - al t 0%nat)) by lra. replace (- (m - al t 0%nat)) with (al t 0%nat - m) by ring.
    set (x := al t 0%nat - m) in *. assert (Hx : 0 < x) by (unfold x; lra).
    replace (m - al t 0%nat) with (- x) by (unfold x; ring).
    replace (cpow x (r2 - 1 - 1)) with (cpow x (r2 - 1) / x).
    2:{ rewrite !cpow_pos by assumption. unfold Rminus at 2. rewrite Rpower_plus, Rpower_Ropp, Rpower_1 by assumption. reflexivity. }
    rewrite Rabs_pos_eq. field. lra.
    rewrite cpow_pos by assumption. apply Rmult_le_pos. apply Hr. apply Rlt_le, exp_pos.
  - apply cv_time_row with (s := s); try assumption. lia.
Qed.
(** below it has the wrong sign *)
Lemma voce_time_refuted : ~ forall v p, (forall T, 0 <= cv_r1 v T * cv_r2 v T) ->
  na_time_exact (fun T s a => ch_time_domain p T s a /\ cv_Rmin v T <> a 0%nat) (ChabocheVoceRecovery v p).
Proof.
  intros H.
  set (v := {| cv_s0 := fun _ => 1; cv_theta0 := fun _ => 1; cv_Rmax := fun _ => 1; cv_Rmin := fun _ => 1; cv_r1 := fun _ => 1; cv_r2 := fun _ => 1 |}).
  set (p := {| ch_nb := 0; ch_c := fun _ _ => 0; ch_dc := fun _ _ => 0; ch_g := fun _ => ConstantGamma (fun _ => 0); ch_A := fun _ _ => 0; ch_a := fun _ _ => 1 |}).
  assert (E := H v p ltac:(intros; simpl; lra) 0 (fun _ _ => 0) (fun u _ => u) 0 (fun _ => 0) (fun _ => 1)
     ltac:(intros i Hi; apply D_const) ltac:(intros i Hi; apply D_id)).
  assert (HP : ch_time_domain p 0 (fun _ => 0) (fun _ => 0) /\ cv_Rmin v 0 <> 0).
  { split. intros i Hi. simpl in Hi. lia. simpl. lra. }
  specialize (E HP 0%nat ltac:(simpl; lia)). clear HP. cbv beta in E. unfold vadd in E. simpl in E.
  rewrite vzero_mv, Rplus_0_l in E. unfold mv in E. simpl in E.
  assert (E2 : is_derive (fun u => 1 * (1 - u) * cpow (Rabs (1 - u)) (1 - 1)) 0 (-1)).
  { apply D_ext with (fun u => 1 - u). intros u. replace (1 - 1) with 0 by ring. rewrite cpow_0_exp. ring.
    eapply D_eq. dall. cbv beta. ring. }
  assert (U := eq_trans (eq_sym (is_derive_unique _ _ _ E2)) (is_derive_unique _ _ _ E)).
  revert U. replace (1 - 0) with 1 by ring. replace (1 - 1) with 0 by ring. rewrite cpow_0_exp.
  unfold copysign. destruct (Rlt_dec 1 0); [lra|]. rewrite Rabs_pos_eq by lra. intros U. lra.
Qed.

(** ** deviatoric backstresses *)
Lemma tr_block al i : tr2 (usym (backstress_i al i)) = al (S (i * 6)) + al (S (i * 6 + 1)) + al (S (i * 6 + 2)).
Proof. rewrite tr2_usym. unfold trace_, backstress_i. f_equal; [f_equal|]; f_equal; lia. Qed.

Lemma tr_total p al : trace_ (ch_back p al) = rsum (ch_nb p) (fun i => tr2 (usym (backstress_i al i))).
Proof.
  unfold trace_, ch_back. rewrite <- !rsum_plus. apply rsum_ext. intros i Hi. rewrite tr_block.
  rewrite Nat.add_0_r. reflexivity.
Qed.

(** n = (dev s + X)/|..|, or zero: its trace is a nonnegative multiple of the trace of X *)
Lemma tr_normal p s al : exists k, 0 <= k /\ trace_ (normalize_vec 6 (ch_rel p s al)) = k * trace_ (ch_back p al).
Proof.
  unfold normalize_vec. destruct (Rlt_dec (Rabs (norm2 6 (ch_rel p s al))) eps).
  - exists 0. split; [lra|]. unfold trace_, vzero. ring.
  - pose proof (norm2_nonneg 6 (ch_rel p s al)) as N. pose proof eps_pos.
    rewrite Rabs_pos_eq in n by assumption.
    exists (/ norm2 6 (ch_rel p s al)). split. apply Rlt_le, Rinv_0_lt_compat. lra.
    set (nv := norm2 6 (ch_rel p s al)) in *. clearbody nv. unfold trace_, ch_rel, vadd, dev_vec. simpl. field. lra.
Qed.

Lemma trace_solve n (t b K : nat -> R) k : 0 <= k -> (forall i, (i < n)%nat -> 0 <= b i /\ 0 < 1 + K i) ->
  (forall i, (i < n)%nat -> (1 + K i) * t i = - (b i * (k * rsum n t))) ->
  forall i, (i < n)%nat -> t i = 0.
Proof.
  intros Hk Hb He.
  set (S := rsum n t) in *.
  assert (Ht : forall i, (i < n)%nat -> t i = (- (b i * k / (1 + K i))) * S).
  { intros i Hi. destruct (Hb i Hi). specialize (He i Hi).
    apply (Rmult_eq_reg_l (1 + K i)); [|lra]. rewrite He. field. lra. }
  assert (HS : S = - rsum n (fun i => b i * k / (1 + K i)) * S).
  { unfold S at 1. transitivity (rsum n (fun i => (- (b i * k / (1 + K i))) * S)). apply rsum_ext. exact Ht.
    rewrite rsum_scal_r. f_equal. rewrite <- rsum_opp. reflexivity. }
  assert (Hp : 0 <= rsum n (fun i => b i * k / (1 + K i))).
  { apply rsum_nonneg. intros i Hi. destruct (Hb i Hi). unfold Rdiv. apply Rmult_le_pos. nra. apply Rlt_le, Rinv_0_lt_compat. lra. }
  assert (HZ : (1 + rsum n (fun i => b i * k / (1 + K i))) * S = 0).
  { rewrite Rmult_plus_distr_r, Rmult_1_l. rewrite HS at 1. ring. }
  assert (H : S = 0) by (apply Rmult_integral in HZ; destruct HZ; [lra|assumption]).
  intros i Hi. rewrite Ht by assumption. rewrite H. ring.
Qed.

(** the temperature coefficient as it appears in h_temp *)
Definition temp_coef (p : chparams) (T : R) (i : nat) : R :=
  if Req_EM_T (ch_c p i T) 0 then 0 else sqrt (2 / 3) * ch_dc p i T / ch_c p i T.

Lemma euler_trace H p (ht : vec -> R -> vec) (rec : vec -> R -> nat -> R) s a_n a T dg dt dT h0 :
  na_n H = S (ch_nb p * 6) ->
  (forall s a T r, na_h H s a T (S r) = ch_h p (h0 a T) s a T (S r)) ->
  (forall s a T r, na_ht H s a T (S r) = - rec a T (r / 6)%nat * a (S r)) ->
  (forall s a T r, na_hT H s a T (S r) = ch_hT p a T (S r)) ->
  (forall i, (i < ch_nb p)%nat -> 0 <= ch_c p i T /\ 0 <= gm (ch_g p i) (a 0%nat) T /\ 0 <= rec a T i /\ -1 < temp_coef p T i * dT) ->
  0 <= dg -> 0 <= dt ->
  euler_step H s a_n a T dg dt dT -> deviatoric_state (ch_nb p) a_n -> deviatoric_state (ch_nb p) a.
Proof.
  intros Hn Hh Hht HhT Hp Hdg Hdt HE HD.
  destruct (tr_normal p s a) as [k [Hk Htr]].
  assert (H23 : 0 < sqrt (2 / 3)) by (apply sqrt_lt_R0; lra).
  unfold deviatoric_state.
  apply (trace_solve (ch_nb p) (fun i => tr2 (usym (backstress_i a i)))
    (fun i => 2 / 3 * ch_c p i T * dg)
    (fun i => sqrt (2 / 3) * gm (ch_g p i) (a 0%nat) T * dg + rec a T i * dt + temp_coef p T i * dT) k Hk).
  - intros i Hi. destruct (Hp i Hi) as [A [B [C D]]]. split.
    + repeat apply Rmult_le_pos; lra.
    + assert (0 <= sqrt (2 / 3) * gm (ch_g p i) (a 0%nat) T * dg) by (repeat apply Rmult_le_pos; lra).
      assert (0 <= rec a T i * dt) by (apply Rmult_le_pos; assumption). lra.
  - intros i Hi. rewrite <- tr_total, <- Htr.
    assert (comp : forall j, (j < 6)%nat ->
       a (S (i * 6 + j)) = a_n (S (i * 6 + j)) + (- 2 / 3 * ch_c p i T * normalize_vec 6 (ch_rel p s a) j - sqrt (2 / 3) * gm (ch_g p i) (a 0%nat) T * a (S (i * 6 + j))) * dg
         - rec a T i * a (S (i * 6 + j)) * dt - temp_coef p T i * a (S (i * 6 + j)) * dT).
    { intros j Hj. assert (L : (S (i * 6 + j) < na_n H)%nat) by (rewrite Hn; nia).
      rewrite (HE _ L) at 1. rewrite Hh, Hht, HhT. unfold ch_h, ch_hT, temp_coef. rewrite divb, modb by assumption.
      destruct (Req_EM_T (ch_c p i T) 0). ring. field. assumption. }
    assert (C0 := comp 0%nat ltac:(lia)). assert (C1 := comp 1%nat ltac:(lia)). assert (C2 := comp 2%nat ltac:(lia)).
    rewrite Nat.add_0_r in C0.
    assert (D := HD i Hi). rewrite tr_block in D. rewrite tr_block. unfold trace_.
    set (x0 := a (S (i * 6))) in *. set (x1 := a (S (i * 6 + 1))) in *. set (x2 := a (S (i * 6 + 2))) in *.
    set (G := sqrt (2 / 3) * gm (ch_g p i) (a 0%nat) T) in *.
    set (n := normalize_vec 6 (ch_rel p s a)) in *.
    lra.
Qed.

Lemma cpow_nonneg x y : 0 <= cpow x y.
Proof.
  unfold cpow. destruct (Rlt_dec 0 x). apply Rlt_le, exp_pos. destruct (Req_EM_T y 0); lra.
Qed.
Lemma thermal_coef p T dT i : thermal_ok p T dT -> (i < ch_nb p)%nat -> -1 < temp_coef p T i * dT.
Proof.
  intros H Hi. unfold temp_coef. destruct (Req_EM_T (ch_c p i T) 0). lra.
  specialize (H i Hi n). unfold Rdiv in *. rewrite <- Rmult_assoc in H. exact H.
Qed.

Lemma reachable_deviatoric H p rec h0 :
  na_n H = S (ch_nb p * 6) ->
  (forall s a T r, na_h H s a T (S r) = ch_h p (h0 a T) s a T (S r)) ->
  (forall s a T r, na_ht H s a T (S r) = - rec a T (r / 6)%nat * a (S r)) ->
  (forall s a T r, na_hT H s a T (S r) = ch_hT p a T (S r)) ->
  ch_nonneg p -> (forall a T i, (i < ch_nb p)%nat -> 0 <= rec a T i) ->
  forall a, reachable H p a -> deviatoric_state (ch_nb p) a.
Proof.
  intros Hn Hh Hht HhT Hp Hrec a R. induction R as [a Ha|s a_n a T dg dt dT _ IH Hdg Hdt Hth HE].
  - intros i Hi. rewrite tr_block. rewrite !Ha by (rewrite Hn; nia). ring.
  - apply (euler_trace H p (fun a _ => a) rec s a_n a T dg dt dT h0); try assumption.
    intros i Hi. destruct (Hp i T (a 0%nat) Hi) as [A [B C]]. 
    split; [assumption|split; [assumption|split; [apply Hrec; assumption|apply thermal_coef; assumption]]].
Qed.

Lemma chaboche_reachable iso p : ch_nonneg p -> forall a, reachable (Chaboche iso p) p a -> deviatoric_state (ch_nb p) a.
Proof.
  intros Hp. apply (reachable_deviatoric (Chaboche iso p) p
    (fun a T i => ch_A p i T * sqrt (3 / 2) * cpow (norm2 6 (ch_block a i)) (ch_a p i T - 1)) (fun _ _ => sqrt (2 / 3))).
  - reflexivity. - reflexivity.
  - intros s a T r. change (na_ht (Chaboche iso p) s a T (S r)) with (- ch_A p (r / 6) T * sqrt (3 / 2) * cpow (norm2 6 (ch_block a (r / 6))) (ch_a p (r / 6) T - 1) * a (S r)). ring.
  - reflexivity. - assumption.
  - intros a T i Hi. destruct (Hp i T 0 Hi) as [_ [_ C]]. apply Rmult_le_pos; [apply Rmult_le_pos; [assumption|apply sqrt_pos]|apply cpow_nonneg].
Qed.
Lemma voce_reachable v p : ch_nonneg p -> forall a, reachable (ChabocheVoceRecovery v p) p a -> deviatoric_state (ch_nb p) a.
Proof.
  intros Hp. apply (reachable_deviatoric (ChabocheVoceRecovery v p) p
    (fun a T i => ch_A p i T * cpow (sqrt (3 / 2) * norm2 6 (ch_block a i)) (ch_a p i T - 1)) (fun a T => cv_theta0 v T * (1 - a 0%nat / cv_Rmax v T) * sqrt (2 / 3))).
  - reflexivity. - reflexivity.
  - intros s a T r. change (na_ht (ChabocheVoceRecovery v p) s a T (S r)) with (- ch_A p (r / 6) T * cpow (sqrt (3 / 2) * norm2 6 (ch_block a (r / 6))) (ch_a p (r / 6) T - 1) * a (S r)). ring.
  - reflexivity. - assumption.
  - intros a T i Hi. destruct (Hp i T 0 Hi) as [_ [_ C]]. apply Rmult_le_pos; [assumption|apply cpow_nonneg].
Qed.
Lemma deviatoric_total n a : deviatoric_state n a -> tr2 (usym (total_backstress n a)) = 0.
Proof.
  intros H. rewrite tr2_usym. unfold trace_, total_backstress. rewrite <- !rsum_plus.
  transitivity (rsum n (fun _ => 0)); [|apply rsum_0]. apply rsum_ext. intros i Hi. specialize (H i Hi). rewrite tr2_usym in H. exact H.
Qed.

(** rates of a deviatoric state are deviatoric *)
Lemma rate_deviatoric p h0 s a T : deviatoric_state (ch_nb p) a -> deviatoric_state (ch_nb p) (ch_h p h0 s a T).
Proof.
  intros H i Hi. rewrite tr_block. unfold ch_h. rewrite !divb by lia. 
  replace ((i * 6) / 6)%nat with i by (symmetry; rewrite <- (Nat.add_0_r (i * 6)); apply divb; lia).
  replace ((i * 6) mod 6)%nat with 0%nat by (symmetry; rewrite <- (Nat.add_0_r (i * 6)); apply modb; lia).
  rewrite !modb by lia.
  destruct (tr_normal p s a) as [k [_ Ht]]. rewrite back_total in Ht.
  assert (Hz := deviatoric_total _ _ H). rewrite tr2_usym in Hz. rewrite Hz in Ht. unfold trace_ in Ht.
  assert (D := H i Hi). rewrite tr_block in D.
  replace (normalize_vec 6 (ch_rel p s a) 2%nat) with (- normalize_vec 6 (ch_rel p s a) 0%nat - normalize_vec 6 (ch_rel p s a) 1%nat) by lra.
  replace (a (S (i * 6 + 2))) with (- a (S (i * 6)) - a (S (i * 6 + 1))) by lra. field.
Qed.
