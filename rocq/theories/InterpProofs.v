From Verif Require Import Base.
From Verif Require Import Diff InterpModel InterpSpec.

(** *** Polynomials *)
Lemma fold_horner x : forall rest p0,
  fold_left (fun res p => res * x + p) rest p0 = p0 * x ^ length rest + poly_spec rest x.
Proof.
  induction rest as [|a rest IH]; intros p0; simpl.
  - ring.
  - rewrite IH. ring.
Qed.

Lemma polyval_spec poly x : poly <> [] -> polyval poly x = Some (poly_spec poly x).
Proof.
  destruct poly as [|p0 rest]; [congruence|]. intros _. simpl.
  now rewrite fold_horner.
Qed.

Lemma dpoly_scale_length : forall res cs, (cs <= length res)%nat -> length (dpoly_scale res cs) = cs.
Proof.
  induction res as [|a res IH]; intros [|cs]; simpl; intros H; try lia.
  rewrite IH; lia.
Qed.

Lemma D_poly_spec : forall coefs x,
  is_derive (poly_spec coefs) x (poly_spec (dpoly_scale coefs (length coefs - 1)) x).
Proof.
  induction coefs as [|a rest IH]; intros x.
  - apply D_const.
  - destruct rest as [|b rest].
    + simpl. eapply D_eq. dall. simpl. ring.
    + specialize (IH x). set (q := b :: rest) in *.
      assert (Hq : length q = S (length rest)) by reflexivity.
      cbn [length]. replace (S (length q) - 1)%nat with (S (length rest)) by lia.
      cbn [dpoly_scale poly_spec]. replace (length q - 1)%nat with (length rest) in IH by lia.
      rewrite dpoly_scale_length by lia.
      apply (is_derive_ext (fun u => a * u ^ length q + poly_spec q u)); [reflexivity|].
      eapply D_eq. apply D_plus; [|exact IH].
      eapply D_mult; [apply D_const|].
      apply is_derive_Reals, derivable_pt_lim_pow.
      cbv beta. rewrite Hq, Nat.pred_succ. ring.
Qed.

Lemma differentiate_poly_1 coefs : coefs <> [] ->
  exists d, differentiate_poly coefs 1 = Some d /\ d <> [] /\
    forall x, poly_spec d x = poly_spec (dpoly_scale coefs (length coefs - 1)) x.
Proof.
  destruct coefs as [|a [|b rest]]; intros H; [congruence| |].
  - exists [0]. split; [reflexivity|]. split; [congruence|]. intros x; simpl. ring.
  - eexists. split; [reflexivity|]. split; [|reflexivity]. simpl. congruence.
Qed.

(** n-fold differentiation *)
Lemma differentiate_poly_length : forall n coefs, coefs <> [] ->
  exists d, differentiate_poly coefs n = Some d /\ d <> [].
Proof.
  induction n as [|n IH]; intros coefs H; simpl.
  - eauto.
  - destruct coefs as [|a [|b rest]]; [congruence| |].
    + exists [0]; split; congruence.
    + apply IH. simpl. congruence.
Qed.

Lemma poly_spec_const_derive_n a n x : (0 < n)%nat -> Derive_n (poly_spec [a]) n x = 0.
Proof.
  intros H. rewrite (Derive_n_ext _ (fun _ => a)).
  - destruct n as [|n]; [lia|]. apply Derive_n_const.
  - intros t. simpl. ring.
Qed.

Lemma differentiate_poly_n : forall n coefs x, coefs <> [] ->
  exists d, differentiate_poly coefs n = Some d /\ polyval d x = Some (Derive_n (poly_spec coefs) n x).
Proof.
  induction n as [|n IH]; intros coefs x H.
  - exists coefs. split; [reflexivity|]. simpl Derive_n. now apply polyval_spec.
  - destruct coefs as [|a [|b rest]]; [congruence| |].
    + exists [0]. split; [reflexivity|]. rewrite poly_spec_const_derive_n by lia. reflexivity.
    + set (cs := a :: b :: rest) in *.
      assert (Hd : differentiate_poly cs (S n) =
                   differentiate_poly (dpoly_scale cs (length cs - 1)) n) by reflexivity.
      destruct (IH (dpoly_scale cs (length cs - 1)) x) as (d & Hd1 & Hd2).
      { unfold cs. simpl. congruence. }
      exists d. split; [congruence|]. rewrite Hd2. f_equal.
      assert (E : Derive_n (poly_spec cs) (S n) x = Derive_n (Derive (poly_spec cs)) n x).
      { replace (S n) with (n + 1)%nat by lia. symmetry. exact (Derive_n_comp (poly_spec cs) n 1 x). }
      rewrite E. apply Derive_n_ext. intros t. symmetry. apply is_derive_unique, D_poly_spec.
Qed.

(** poly_from_roots: lowest order first evaluation *)
Fixpoint lof (p : list R) (x : R) : R := match p with [] => 0 | a :: r => a + x * lof r x end.

Lemma lof_sub_scaled x r : forall q p, length p = S (length q) ->
  lof (sub_scaled p q r) x = lof p x - r * lof q x.
Proof.
  induction q as [|b q IH]; intros [|a p] H; simpl in *; try lia.
  - injection H as H. destruct p; [|discriminate]. simpl. ring.
  - rewrite IH by lia. ring.
Qed.

Lemma sub_scaled_length r : forall q p, (length q <= length p)%nat -> length (sub_scaled p q r) = length p.
Proof.
  induction q as [|b q IH]; intros [|a p] H; simpl in *; try lia.
  rewrite IH; lia.
Qed.

Lemma sub_scaled_last r : forall q p, length p = S (length q) -> last (sub_scaled p q r) 0 = last p 0.
Proof.
  induction q as [|b q IH]; intros [|a p] H; cbn [length sub_scaled] in *; try lia; [reflexivity|].
  injection H as H. specialize (IH p H).
  destruct p as [|a' p]; [cbn in H; lia|].
  cbn [last]. cbn [last] in IH. rewrite <- IH.
  destruct (sub_scaled (a' :: p) q r) eqn:E; [|reflexivity].
  apply (f_equal (@length R)) in E. rewrite sub_scaled_length in E by (cbn in *; lia). cbn in E. lia.
Qed.

Lemma lof_app p a x : lof (p ++ [a]) x = lof p x + a * x ^ length p.
Proof. induction p as [|b p IH]; simpl; [ring|]. rewrite IH. ring. Qed.

Lemma poly_spec_rev p x : poly_spec (rev p) x = lof p x.
Proof.
  rewrite <- (rev_involutive p) at 2. induction (rev p) as [|a q IH]; simpl; [reflexivity|].
  rewrite lof_app, IH, rev_length. ring.
Qed.


Lemma fold_root_step x : forall roots p, lof (fold_left root_step roots p) x = lof p x * prod_roots roots x.
Proof.
  induction roots as [|r roots IH]; intros p; simpl; [ring|].
  rewrite IH. unfold root_step. rewrite lof_sub_scaled by reflexivity. simpl. ring.
Qed.

Lemma root_step_length p r : length (root_step p r) = S (length p).
Proof. unfold root_step. rewrite sub_scaled_length; simpl; lia. Qed.

Lemma root_step_last p r : p <> [] -> last (root_step p r) 0 = last p 0.
Proof.
  intros H. unfold root_step. rewrite sub_scaled_last by reflexivity.
  destruct p; [congruence|reflexivity].
Qed.

Lemma fold_root_step_shape : forall roots p, p <> [] ->
  length (fold_left root_step roots p) = (length p + length roots)%nat /\
  last (fold_left root_step roots p) 0 = last p 0 /\ fold_left root_step roots p <> [].
Proof.
  induction roots as [|r roots IH]; intros p H; simpl; [split; [lia|now split]|].
  destruct (IH (root_step p r)) as (H1 & H2 & H3).
  { intros E. apply (f_equal (@length R)) in E. rewrite root_step_length in E. discriminate. }
  rewrite H1, H2, root_step_length, root_step_last by exact H. split; [lia|now split].
Qed.

Lemma hd_rev_last (l : list R) : hd 0 (rev l) = last l 0.
Proof.
  induction l as [|a l IH]; [reflexivity|]. destruct l as [|b l]; [reflexivity|].
  change (last (a :: b :: l) 0) with (last (b :: l) 0). rewrite <- IH.
  change (rev (a :: b :: l)) with (rev (b :: l) ++ [a]).
  destruct (rev (b :: l)) eqn:E; [|reflexivity].
  apply (f_equal (@length R)) in E. rewrite rev_length in E. discriminate.
Qed.

(** *** Tables *)
Lemma increasing_tail a l : increasing (a :: l) -> increasing l.
Proof. destruct l; simpl; tauto. Qed.

Lemma increasing_lt : forall l a y, increasing (a :: l) -> In y l -> a < y.
Proof.
  induction l as [|b l IH]; intros a y H Hy; [destruct Hy|].
  destruct H as [Hab Hl]. destruct Hy as [->|Hy]; [exact Hab|].
  generalize (IH b y Hl Hy). lra.
Qed.

Lemma last_error_app l a : last_error (l ++ [a]) = Some a.
Proof. unfold last_error. now rewrite rev_app_distr. Qed.

Lemma last_error_cons a b l : last_error (a :: b :: l) = last_error (b :: l).
Proof.
  unfold last_error. change (rev (a :: b :: l)) with (rev (b :: l) ++ [a]).
  destruct (rev (b :: l)) eqn:E; [|reflexivity].
  apply (f_equal (@length R)) in E. rewrite rev_length in E. discriminate.
Qed.

Lemma last_error_some a l : exists b, last_error (a :: l) = Some b /\ In b (a :: l).
Proof.
  revert a. induction l as [|b l IH]; intros a.
  - exists a. split; [reflexivity|now left].
  - destruct (IH b) as (c & Hc & Hin). exists c. rewrite last_error_cons. split; [exact Hc|now right].
Qed.

Lemma find_ind_bracket : forall pts k x1 x2 u, increasing pts ->
  nth_error pts k = Some x1 -> nth_error pts (S k) = Some x2 -> x1 < u <= x2 ->
  find_ind pts u = S k.
Proof.
  induction pts as [|p pts IH]; intros k x1 x2 u Hi H1 H2 Hu; [destruct k; discriminate|].
  simpl. destruct k as [|k]; simpl in *.
  - injection H1 as ->. destruct (Rle_dec u x1); [lra|].
    destruct pts as [|q pts]; [discriminate|]. injection H2 as ->. simpl.
    destruct (Rle_dec u x2); [reflexivity|lra].
  - destruct (Rle_dec u p) as [Hle|Hgt].
    + apply nth_error_In in H1. generalize (increasing_lt pts p x1 Hi H1). lra.
    + f_equal. eapply IH; eauto. eapply increasing_tail; eauto.
Qed.

Lemma bracket_exists : forall pts p0 pN x, increasing pts ->
  hd_error pts = Some p0 -> last_error pts = Some pN -> p0 < x < pN ->
  exists k x1 x2, nth_error pts k = Some x1 /\ nth_error pts (S k) = Some x2 /\ x1 < x <= x2.
Proof.
  induction pts as [|p pts IH]; intros p0 pN x Hi H0 HN Hx; [discriminate|].
  injection H0 as ->. destruct pts as [|q pts].
  - cbv in HN. injection HN as ->. lra.
  - destruct (Rle_dec x q) as [Hle|Hgt].
    + exists 0%nat, p0, q. repeat split; try reflexivity; lra.
    + rewrite last_error_cons in HN.
      destruct (IH q pN x) as (k & x1 & x2 & H1 & H2 & H3); auto.
      * exact (increasing_tail _ _ Hi).
      * lra.
      * exists (S k), x1, x2. auto.
Qed.

Lemma nth_error_some {A} (l : list A) k : (k < length l)%nat -> exists a, nth_error l k = Some a.
Proof.
  intros H. destruct (nth_error l k) eqn:E; [eauto|]. apply nth_error_None in E. lia.
Qed.

Lemma nth_error_lt {A} (l : list A) k a : nth_error l k = Some a -> (k < length l)%nat.
Proof. intros H. apply nth_error_Some. congruence. Qed.

(** Complete case analysis of the table lookup. *)
Lemma piecewise_inside pts vals lo hi M u k x1 x2 y1 y2 p0 pN :
  increasing pts -> hd_error pts = Some p0 -> last_error pts = Some pN ->
  nth_error pts k = Some x1 -> nth_error pts (S k) = Some x2 ->
  nth_error vals k = Some y1 -> nth_error vals (S k) = Some y2 ->
  x1 < u <= x2 -> u < pN ->
  piecewise pts vals lo hi (M u) u = Some (M u x1 x2 y1 y2).
Proof.
  intros Hi H0 HN H1 H2 Hy1 Hy2 Hu HuN. unfold piecewise.
  fold (last_error pts). rewrite H0, HN.
  assert (Hp0 : p0 <= x1).
  { destruct pts as [|p pts]; [discriminate|]. injection H0 as ->.
    destruct k as [|k]; simpl in H1.
    - injection H1 as ->. lra.
    - apply Rlt_le. eapply increasing_lt; [exact Hi|]. eapply nth_error_In; eauto. }
  destruct (Rle_dec u p0); [lra|]. destruct (Rle_dec pN u); [lra|].
  rewrite (find_ind_bracket pts k x1 x2 u Hi H1 H2 Hu).
  replace (S k - 1)%nat with k by lia.
  now rewrite H1, H2, Hy1, Hy2.
Qed.

Lemma piecewise_left pts vals lo hi M u p0 : pts <> [] ->
  hd_error pts = Some p0 -> u <= p0 -> piecewise pts vals lo hi M u = lo.
Proof.
  intros Hn H0 Hu. unfold piecewise. rewrite H0. fold (last_error pts).
  destruct pts as [|a pts]; [congruence|].
  destruct (last_error_some a pts) as (b & Hb & _). rewrite Hb.
  destruct (Rle_dec u p0); [reflexivity|lra].
Qed.

Lemma piecewise_right pts vals lo hi M u p0 pN :
  hd_error pts = Some p0 -> last_error pts = Some pN -> p0 < u -> pN <= u ->
  piecewise pts vals lo hi M u = hi.
Proof.
  intros H0 HN Hu HuN. unfold piecewise. rewrite H0. fold (last_error pts). rewrite HN.
  destruct (Rle_dec u p0); [lra|]. destruct (Rle_dec pN u); [reflexivity|lra].
Qed.

Lemma head_le_last pts p0 pN : increasing pts -> hd_error pts = Some p0 ->
  last_error pts = Some pN -> p0 <= pN.
Proof.
  intros Hi H0 HN. destruct pts as [|a pts]; [discriminate|]. injection H0 as ->.
  destruct (last_error_some p0 pts) as (b & Hb & Hin). rewrite HN in Hb. injection Hb as <-.
  destruct Hin as [->|Hin]; [lra|]. apply Rlt_le. eapply increasing_lt; eauto.
Qed.

Lemma hd_last_exist (l : list R) : l <> [] ->
  exists a b, hd_error l = Some a /\ last_error l = Some b /\ In a l /\ In b l.
Proof.
  destruct l as [|a l]; [congruence|]. intros _.
  destruct (last_error_some a l) as (b & Hb & Hin).
  exists a, b. repeat split; auto. now left.
Qed.

Lemma locally_lt (x a : R) : x < a -> locally x (fun u => u < a).
Proof. intros H. apply (open_lt a). exact H. Qed.
Lemma locally_gt (x a : R) : a < x -> locally x (fun u => a < u).
Proof. intros H. apply (open_gt a). exact H. Qed.

(** Near a point that is not a knot a table lookup is one smooth formula. *)
Lemma piecewise_smooth pts vals lo hi M x :
  length pts = length vals -> pts <> [] -> increasing pts -> ~ In x pts ->
  (locally x (fun u => piecewise pts vals lo hi (M u) u = lo) /\
   forall lo' hi' M', piecewise pts vals lo' hi' M' x = lo') \/
  (locally x (fun u => piecewise pts vals lo hi (M u) u = hi) /\
   forall lo' hi' M', piecewise pts vals lo' hi' M' x = hi') \/
  (exists k x1 x2 y1 y2,
     nth_error pts k = Some x1 /\ nth_error pts (S k) = Some x2 /\
     nth_error vals k = Some y1 /\ nth_error vals (S k) = Some y2 /\ x1 < x < x2 /\
     locally x (fun u => piecewise pts vals lo hi (M u) u = Some (M u x1 x2 y1 y2)) /\
     forall lo' hi' M', piecewise pts vals lo' hi' (M' x) x = Some (M' x x1 x2 y1 y2)).
Proof.
  intros Hl Hn Hi Hx.
  destruct (hd_last_exist pts Hn) as (p0 & pN & H0 & HN & Hin0 & HinN).
  assert (p0 <> x) by (intros ->; tauto). assert (pN <> x) by (intros ->; tauto).
  assert (Hle := head_le_last pts p0 pN Hi H0 HN).
  destruct (Rlt_le_dec x p0) as [Hlt|Hge].
  - left. split.
    + generalize (locally_lt x p0 Hlt). apply filter_imp. intros u Hu.
      eapply piecewise_left; eauto; lra.
    + intros. eapply piecewise_left; eauto; lra.
  - right. destruct (Rlt_le_dec pN x) as [Hgt|Hle2].
    + left. split.
      * generalize (locally_gt x pN Hgt). apply filter_imp. intros u Hu.
        eapply piecewise_right; eauto; lra.
      * intros. eapply piecewise_right; eauto; lra.
    + right.
      destruct (bracket_exists pts p0 pN x Hi H0 HN) as (k & x1 & x2 & Hk1 & Hk2 & Hb); [lra|].
      destruct (nth_error_some vals k) as (y1 & Hy1).
      { rewrite <- Hl. exact (nth_error_lt _ _ _ Hk1). }
      destruct (nth_error_some vals (S k)) as (y2 & Hy2).
      { rewrite <- Hl. exact (nth_error_lt _ _ _ Hk2). }
      assert (x <> x2). { intros ->. apply Hx. eapply nth_error_In; eauto. }
      exists k, x1, x2, y1, y2. repeat split; auto; try lra.
      * assert (L1 := locally_gt x x1 ltac:(lra)). assert (L2 := locally_lt x x2 ltac:(lra)).
        assert (L3 := locally_lt x pN ltac:(lra)).
        generalize (filter_and _ _ L1 (filter_and _ _ L2 L3)). apply filter_imp.
        intros u (U1 & U2 & U3). eapply piecewise_inside; eauto; lra.
      * intros. eapply (piecewise_inside pts vals lo' hi' M'); eauto; lra.
Qed.

Lemma hd_error_some_len (l : list R) : l <> [] -> exists a, hd_error l = Some a.
Proof. destruct l; [congruence|]. eexists; reflexivity. Qed.

Lemma vals_nonempty {A B} (p : list A) (v : list B) : length p = length v -> p <> [] -> v <> [].
Proof. destruct p, v; simpl; congruence || discriminate. Qed.

(** *** The derivative theorem *)
Definition deriv_ok (i : interp) (x : R) : Prop :=
  exists f d, describes i x f /\ iderivative i x = Some d /\ is_derive f x d.

Lemma table_deriv pts vals (M M' : R -> R -> R -> R -> R -> R) (lo hi : R) x :
  length pts = length vals -> pts <> [] -> increasing pts -> ~ In x pts ->
  (forall x1 x2 y1 y2, In x1 pts -> In x2 pts -> x1 < x < x2 ->
     is_derive (fun u => M u x1 x2 y1 y2) x (M' x x1 x2 y1 y2)) ->
  exists f d, locally x (fun u => piecewise pts vals (Some lo) (Some hi) (M u) u = Some (f u)) /\
    piecewise pts vals (Some 0) (Some 0) (M' x) x = Some d /\ is_derive f x d.
Proof.
  intros Hl Hn Hi Hx HD.
  destruct (piecewise_smooth pts vals (Some lo) (Some hi) M x Hl Hn Hi Hx) as
    [[H1 H2]|[[H1 H2]|(k & x1 & x2 & y1 & y2 & Hx1 & Hx2 & Hy1 & Hy2 & Hb & H1 & H2)]].
  - exists (fun _ => lo), 0. split; [exact H1|]. split; [apply H2|apply D_const].
  - exists (fun _ => hi), 0. split; [exact H1|]. split; [apply H2|apply D_const].
  - exists (fun u => M u x1 x2 y1 y2), (M' x x1 x2 y1 y2). split; [exact H1|].
    split; [apply (H2 _ _ M')|].
    apply HD; auto; eapply nth_error_In; eauto.
Qed.

Lemma ln10_neq : ln 10 <> 0.
Proof. apply Rgt_not_eq. rewrite <- ln_1. apply ln_increasing; lra. Qed.

Lemma log10_lt a b : 0 < a -> a < b -> log10 a < log10 b.
Proof.
  intros Ha Hab. unfold log10, Rdiv. apply Rmult_lt_compat_r.
  - apply Rinv_0_lt_compat. rewrite <- ln_1. apply ln_increasing; lra.
  - apply ln_increasing; lra.
Qed.

Lemma IPLin_ok pts vals x : smooth (IPLin pts vals) x -> deriv_ok (IPLin pts vals) x.
Proof.
  intros (Hl & Hn & Hi & Hx). unfold deriv_ok, describes. cbn [ivalue iderivative].
  destruct (hd_last_exist vals (vals_nonempty _ _ Hl Hn)) as (v0 & vN & -> & -> & _).
  apply (table_deriv pts vals
    (fun u x1 x2 y1 y2 => (y2 - y1) / (x2 - x1) * (u - x1) + y1)
    (fun u x1 x2 y1 y2 => (y2 - y1) / (x2 - x1)) v0 vN x Hl Hn Hi Hx).
  intros x1 x2 y1 y2 _ _ Hb. eapply D_eq. dall. cbv beta. field. lra.
Qed.

Lemma ILogLin_ok pts vals x : smooth (ILogLin pts vals) x -> deriv_ok (ILogLin pts vals) x.
Proof.
  intros (Hl & Hn & Hi & Hx & _). unfold deriv_ok, describes. cbn [ivalue iderivative].
  assert (Hl' : length pts = length (map ln vals)) by (now rewrite map_length).
  destruct (hd_last_exist (map ln vals) (vals_nonempty _ _ Hl' Hn)) as (v0 & vN & -> & -> & _).
  apply (table_deriv pts (map ln vals)
    (fun u x1 x2 y1 y2 => exp ((y2 - y1) / (x2 - x1) * (u - x1) + y1))
    (fun u x1 x2 y1 y2 => exp ((y2 - y1) / (x2 - x1) * (u - x1) + y1) * (y2 - y1) / (x2 - x1))
    (exp v0) (exp vN) x Hl' Hn Hi Hx).
  intros x1 x2 y1 y2 _ _ Hb. eapply D_eq. dall. cbv beta. field. lra.
Qed.

Lemma ISemiLogX_ok pts vals x : smooth (ISemiLogX pts vals) x -> deriv_ok (ISemiLogX pts vals) x.
Proof.
  intros (Hl & Hn & Hi & Hx & Hp). unfold deriv_ok, describes. cbn [ivalue iderivative].
  destruct (hd_last_exist vals (vals_nonempty _ _ Hl Hn)) as (v0 & vN & -> & -> & _).
  apply (table_deriv pts vals
    (fun u x1 x2 y1 y2 => (y2 - y1) / (log10 x2 - log10 x1) * (log10 u - log10 x1) + y1)
    (fun u x1 x2 y1 y2 => (y2 - y1) / (log10 x2 - log10 x1) / (u * ln 10)) v0 vN x Hl Hn Hi Hx).
  intros x1 x2 y1 y2 H1 _ Hb. rewrite Forall_forall in Hp. assert (0 < x1) by auto.
  assert (log10 x1 < log10 x2) by (apply log10_lt; lra).
  assert (0 < x) by lra. assert (Hn10 := ln10_neq). eapply D_eq. dall; cbv beta; assumption. cbv beta. field. repeat split; auto; lra.
Qed.

Lemma sinh_exp_id x T0 : x <> 0 ->
  4 * (sinh (T0 / (2 * x)) * sinh (T0 / (2 * x))) * exp (T0 / x) = (exp (T0 / x) - 1) * (exp (T0 / x) - 1).
Proof.
  intros Hx. set (h := T0 / (2 * x)).
  replace (T0 / x) with (h + h) by (unfold h; field; exact Hx).
  unfold sinh. rewrite exp_plus.
  assert (E : exp h * exp (- h) = 1) by (rewrite <- exp_plus, Rplus_opp_r; apply exp_0).
  replace (4 * ((exp h - exp (- h)) / 2 * ((exp h - exp (- h)) / 2)) * (exp h * exp h))
    with ((exp h * exp h - exp h * exp (- h)) * (exp h * exp h - exp h * exp (- h))) by field.
  rewrite E. ring.
Qed.

Lemma IMTSShear_ok V0 D T0 x : smooth (IMTSShear V0 D T0) x -> deriv_ok (IMTSShear V0 D T0) x.
Proof.
  intros (Hx & HT). unfold deriv_ok, describes. cbn [ivalue iderivative].
  eexists (fun u => V0 - D / (exp (T0 / u) - 1)), _. split; [|split; [reflexivity|]].
  { apply filter_forall. reflexivity. }
  assert (He : exp (T0 / x) - 1 <> 0).
  { intros E. assert (E1 : exp (T0 / x) = exp 0) by (rewrite exp_0; lra).
    apply exp_inv in E1. apply HT. apply (Rmult_eq_reg_r (/ x)).
    - unfold Rdiv in E1. lra. - now apply Rinv_neq_0_compat. }
  assert (Hs := sinh_exp_id x T0 Hx).
  assert (Hs0 : sinh (T0 / (2 * x)) <> 0).
  { intros E. rewrite E in Hs. apply He.
    assert (E2 : (exp (T0 / x) - 1) * (exp (T0 / x) - 1) = 0) by lra.
    apply Rmult_integral in E2. tauto. }
  eapply D_eq. dall; auto. cbv beta.
  assert (Hep := exp_pos (T0 / x)).
  set (e := exp (T0 / x)) in *. set (sh := sinh (T0 / (2 * x))) in *.
  replace (4 * (x * sh * (x * sh))) with ((e - 1) * (e - 1) / e * (x * x)).
  - field. repeat split; auto; lra.
  - rewrite <- Hs. field. lra.
Qed.

Lemma IPoly_ok coefs x : smooth (IPoly coefs) x -> deriv_ok (IPoly coefs) x.
Proof.
  intros H. unfold deriv_ok, describes. cbn [ivalue iderivative smooth] in *.
  destruct (differentiate_poly_1 coefs H) as (d & Hd & Hd0 & Hds).
  exists (poly_spec coefs), (poly_spec d x). rewrite Hd. cbn [obind]. split; [|split].
  - apply filter_forall. intros u. now apply polyval_spec.
  - now apply polyval_spec.
  - rewrite Hds. apply D_poly_spec.
Qed.

Lemma IMTS_ok tau0 g0 q p k b mu x :
  (smooth mu x -> deriv_ok mu x) ->
  smooth (IMTS tau0 g0 q p k b mu) x -> deriv_ok (IMTS tau0 g0 q p k b mu) x.
Proof.
  intros IH (Hmu & Hx & Hq & Hp & Hb & Hg & m & Hm & Hm0 & Hpos & Hlt).
  destruct (IH Hmu) as (f & d & Hf & Hd & HD).
  assert (Hfx : f x = m).
  { assert (E := locally_singleton _ _ Hf). cbv beta in E. congruence. }
  unfold deriv_ok, describes. cbn [ivalue iderivative]. rewrite Hm, Hd.
  exists (fun u => tau0 * cpow (1 - cpow (k * u / (f u * (b * b * b) * g0)) (1 / q)) (1 / p)).
  eexists. split; [|split; [reflexivity|]].
  { generalize (Hf : locally x _). apply filter_imp. intros u Hu. now rewrite Hu. }
  assert (Hden : f x * (b * b * b) * g0 <> 0).
  { rewrite Hfx. repeat apply Rmult_integral_contrapositive_currified; assumption. }
  set (I := k * x / (m * (b * b * b) * g0)) in *.
  assert (HI : k * x / (b * b * b * g0 * m) = I). { unfold I. f_equal. ring. }
  cbv zeta. rewrite HI.
  eapply D_eq.
  { dall.
    - exact Hden.
    - rewrite Hfx. exact Hpos.
    - rewrite Hfx. fold I. rewrite cpow_pos by exact Hpos. lra. }
  cbv beta. rewrite Hfx. fold I.
  set (P := cpow (1 - cpow I (1 / q)) (1 / p - 1)).
  assert (HP : cpow I (1 / q - 1) = cpow I (1 / q) / I).
  { rewrite !cpow_pos by exact Hpos. unfold Rminus. rewrite Rpower_plus, Rpower_Ropp, Rpower_1 by exact Hpos.
    reflexivity. }
  rewrite HP. set (Q := cpow I (1 / q)).
  assert (Hk : k <> 0). { intros ->. unfold I in Hpos. unfold Rdiv in Hpos. rewrite Rmult_0_l, Rmult_0_l in Hpos. lra. }
  unfold I. field. repeat split; auto.
Qed.

(** generic piecewise: choose the component *)
Lemma interp_ind_nested (P : interp -> Prop) :
  (forall c, P (IPoly c)) -> (forall p v, P (IPLin p v)) ->
  (forall p fs, (forall f, In f fs -> P f) -> P (IGen p fs)) ->
  (forall p v, P (ILogLin p v)) -> (forall p v, P (ISemiLogX p v)) ->
  (forall v, P (IConst v)) -> (forall A B, P (IExp A B)) -> (forall A B, P (IPow A B)) ->
  (forall V D T, P (IMTSShear V D T)) ->
  (forall tau0 g0 q p k b mu, P mu -> P (IMTS tau0 g0 q p k b mu)) ->
  forall i, P i.
Proof.
  intros H1 H2 H3 H4 H5 H6 H7 H8 H9 H10.
  fix IH 1. intros [c|p v|p fs|p v|p v|v|A B|A B|V D T|tau0 g0 q p k b mu];
    [apply H1|apply H2| |apply H4|apply H5|apply H6|apply H7|apply H8|apply H9|apply H10, IH].
  apply H3. induction fs as [|f fs IHfs]; intros g Hg; [destruct Hg|].
  destruct Hg as [<-|Hg]; [apply IH|now apply IHfs].
Qed.

Lemma smooth_all_In fs x :
  (fix all (fs : list interp) : Prop :=
     match fs with [] => True | f :: r => smooth f x /\ all r end) fs ->
  forall f, In f fs -> smooth f x.
Proof.
  induction fs as [|g fs IH]; simpl; intros H f Hf; [tauto|].
  destruct Hf as [<-|Hf]; [tauto|]. apply IH; tauto.
Qed.

Lemma find_ind_lt_len pts x pN : last_error pts = Some pN -> x <= pN -> (find_ind pts x < length pts)%nat.
Proof.
  induction pts as [|p pts IH]; intros HN Hx; [discriminate|]. simpl.
  destruct (Rle_dec x p); [lia|]. destruct pts as [|q pts].
  - cbv in HN. injection HN as ->. lra.
  - rewrite last_error_cons in HN. specialize (IH HN Hx). simpl in *. lia.
Qed.

Lemma gen_select pts (fs : list interp) x :
  pts <> [] -> increasing pts -> ~ In x pts -> length fs = S (length pts) ->
  exists f, In f fs /\
    locally x (fun u => ivalue (IGen pts fs) u = ivalue f u) /\
    iderivative (IGen pts fs) x = iderivative f x.
Proof.
  intros Hn Hi Hx Hl.
  destruct (hd_last_exist pts Hn) as (p0 & pN & H0 & HN & Hin0 & HinN).
  assert (p0 <> x) by (intros ->; tauto). assert (pN <> x) by (intros ->; tauto).
  assert (Hle := head_le_last pts p0 pN Hi H0 HN).
  cbn [ivalue iderivative]. fold (last_error pts). rewrite H0, HN.
  destruct fs as [|f0 fs]; [discriminate|].
  destruct (Rlt_le_dec x p0) as [Hlt|Hge].
  - exists f0. split; [now left|]. split.
    + generalize (locally_lt x p0 Hlt). apply filter_imp. intros u Hu.
      destruct (Rle_dec u p0); [reflexivity|lra].
    + destruct (Rle_dec x p0); [reflexivity|lra].
  - destruct (Rlt_le_dec pN x) as [Hgt|Hle2].
    + destruct (exists_last (l := f0 :: fs)) as (pre & g & Hg); [congruence|].
      exists g. rewrite Hg. split; [apply in_or_app; right; now left|]. split.
      * generalize (locally_gt x pN Hgt). apply filter_imp. intros u Hu.
        destruct (Rle_dec u p0); [lra|]. destruct (Rle_dec pN u); [|lra].
        rewrite map_app, rev_app_distr. reflexivity.
      * destruct (Rle_dec x p0); [lra|]. destruct (Rle_dec pN x); [|lra].
        rewrite map_app, rev_app_distr. reflexivity.
    + destruct (bracket_exists pts p0 pN x Hi H0 HN) as (k & x1 & x2 & Hk1 & Hk2 & Hb); [lra|].
      assert (x <> x2). { intros ->. apply Hx. eapply nth_error_In; eauto. }
      destruct (nth_error_some (f0 :: fs) (S k)) as (g & Hg).
      { rewrite Hl. generalize (nth_error_lt _ _ _ Hk2). lia. }
      exists g. split; [eapply nth_error_In; eauto|]. split.
      * assert (L1 := locally_gt x x1 ltac:(lra)). assert (L2 := locally_lt x x2 ltac:(lra)).
        assert (L3 := locally_lt x pN ltac:(lra)). assert (L4 := locally_gt x p0 ltac:(lra)).
        generalize (filter_and _ _ (filter_and _ _ L1 L4) (filter_and _ _ L2 L3)). apply filter_imp.
        intros u ((U1 & U4) & U2 & U3).
        destruct (Rle_dec u p0); [lra|]. destruct (Rle_dec pN u); [lra|].
        rewrite (find_ind_bracket pts k x1 x2 u Hi Hk1 Hk2) by lra.
        rewrite (map_nth_error _ _ _ Hg). reflexivity.
      * destruct (Rle_dec x p0); [lra|]. destruct (Rle_dec pN x); [lra|].
        rewrite (find_ind_bracket pts k x1 x2 x Hi Hk1 Hk2) by lra.
        rewrite (map_nth_error _ _ _ Hg). reflexivity.
Qed.

Lemma interp_deriv_ok : forall i x, smooth i x -> deriv_ok i x.
Proof.
  intros i. induction i using interp_ind_nested; intros x Hs.
  - now apply IPoly_ok.
  - now apply IPLin_ok.
  - destruct Hs as (Hn & Hi & Hx & Hl & Hall).
    destruct (gen_select p fs x Hn Hi Hx Hl) as (f & Hf & Hv & Hd).
    destruct (H f Hf x (smooth_all_In fs x Hall f Hf)) as (g & d & Hg & Hd' & HD).
    exists g, d. unfold describes in *. split; [|split; [congruence|exact HD]].
    generalize (filter_and _ _ Hv Hg). apply filter_imp. intros u (E1 & E2). congruence.
  - now apply ILogLin_ok.
  - now apply ISemiLogX_ok.
  - exists (fun _ => v), 0. split; [unfold describes; apply filter_forall; reflexivity|]. split; [reflexivity|apply D_const].
  - cbn [smooth] in Hs. eexists (fun u => A * exp (B / u)), _. split; [unfold describes; apply filter_forall; reflexivity|].
    split; [reflexivity|]. eapply D_eq. dall. exact Hs. cbv beta. field. exact Hs.
  - cbn [smooth] in Hs. eexists (fun u => A * cpow u B), _. split; [unfold describes; apply filter_forall; reflexivity|].
    split; [reflexivity|]. eapply D_eq. dall. exact Hs. cbv beta. ring.
  - now apply IMTSShear_ok.
  - now apply IMTS_ok; [apply IHi|].
Qed.

(** *** Knots, clamping, bounds, continuity *)

(** A table as a recursive function of (point, value) pairs. *)
Fixpoint tbl (M : R -> R -> R -> R -> R -> R) (p a : R) (rest : list (R * R)) (x : R) : R :=
  match rest with
  | [] => a
  | (q, b) :: rest' =>
    if Rle_dec x p then a else if Rle_dec x q then M x p q a b else tbl M q b rest' x
  end.

Definition pts_of (p a : R) (rest : list (R * R)) := p :: map fst rest.
Definition vals_of (p a : R) (rest : list (R * R)) := a :: map snd rest.

(** what a table needs from its interpolation formula *)
Record good_mid (Pp Pv : R -> Prop) (M : R -> R -> R -> R -> R -> R) : Prop := {
  gm_l : forall p q a b, p < q -> Pp p -> Pp q -> Pv a -> Pv b -> M p p q a b = a;
  gm_r : forall p q a b, p < q -> Pp p -> Pp q -> Pv a -> Pv b -> M q p q a b = b;
  gm_b : forall p q a b x, p < q -> Pp p -> Pp q -> Pv a -> Pv b -> p <= x <= q ->
         Rmin a b <= M x p q a b <= Rmax a b;
  gm_c : forall p q a b x, p < q -> Pp p -> Pp q -> Pv a -> Pv b -> p <= x <= q ->
         continuous (fun u => M u p q a b) x }.

Definition okl (Pp Pv : R -> Prop) (p a : R) (rest : list (R * R)) : Prop :=
  increasing (p :: map fst rest) /\ Pp p /\ Pv a /\
  List.Forall (fun r => Pp (fst r) /\ Pv (snd r)) rest.

Lemma okl_tail Pp Pv p a q b rest : okl Pp Pv p a ((q, b) :: rest) ->
  okl Pp Pv q b rest /\ p < q /\ Pp p /\ Pp q /\ Pv a /\ Pv b.
Proof.
  intros (Hi & HP & HV & HF). inversion HF as [|x l [H1 H2] H3]; subst. simpl in *.
  destruct Hi as [Hpq Hi]. unfold okl. repeat split; auto.
Qed.

Lemma tbl_left M p a rest x : x <= p -> tbl M p a rest x = a.
Proof.
  destruct rest as [|[q b] rest]; simpl; [reflexivity|]. intros H.
  destruct (Rle_dec x p); [reflexivity|lra].
Qed.

Lemma find_ind_pos p l x : p < x -> (1 <= find_ind (p :: l) x)%nat.
Proof. intros H. simpl. destruct (Rle_dec x p); [lra|lia]. Qed.

Lemma piecewise_tbl Pp Pv M : good_mid Pp Pv M -> forall rest p a x hi, okl Pp Pv p a rest ->
  last_error (vals_of p a rest) = Some hi ->
  piecewise (pts_of p a rest) (vals_of p a rest) (Some a) (Some hi) (M x) x = Some (tbl M p a rest x).
Proof.
  intros HM. induction rest as [|[q b] rest IH]; intros p a x hi Hok Hhi.
  - cbv in Hhi. injection Hhi as ->. unfold piecewise, pts_of, vals_of. simpl.
    destruct (Rle_dec x p); [reflexivity|]. destruct (Rle_dec p x); [reflexivity|lra].
  - destruct (okl_tail _ _ _ _ _ _ _ Hok) as (Hok' & Hpq & HPp & HPq & HVa & HVb).
    assert (Hhi' : last_error (vals_of q b rest) = Some hi).
    { unfold vals_of in *. simpl in Hhi. rewrite last_error_cons in Hhi. exact Hhi. }
    specialize (IH q b x hi Hok' Hhi').
    unfold pts_of, vals_of in *. simpl map in *.
    destruct (last_error_some q (map fst rest)) as (pN & HpN & _).
    assert (HqN : q <= pN).
    { destruct Hok' as [H _]. exact (head_le_last _ q pN H eq_refl HpN). }
    assert (HpN2 : last_error (p :: q :: map fst rest) = Some pN) by (rewrite last_error_cons; exact HpN).
    cbn [tbl].
    destruct (Rle_dec x p) as [Hxp|Hxp].
    { apply (piecewise_left _ _ _ _ _ _ p); [congruence|reflexivity|exact Hxp]. }
    destruct (Rle_dec x q) as [Hxq|Hxq].
    + destruct (Rle_dec pN x) as [HNx|HNx].
      * assert (x = q) by lra. assert (pN = q) by lra. subst x pN.
        rewrite (piecewise_right _ _ _ _ _ _ p q) by (auto; lra).
        rewrite (gm_r _ _ _ HM) by auto. f_equal.
        (* rest must be empty *)
        destruct rest as [|[r c] rest].
        { cbv in Hhi'. congruence. }
        exfalso. destruct Hok' as [Hi _]. simpl in Hi, HpN. destruct Hi as [Hqr Hi].
        rewrite last_error_cons in HpN.
        generalize (head_le_last (r :: map fst rest) r q Hi eq_refl HpN). lra.
      * apply (piecewise_inside _ _ _ _ M x 0 p q a b p pN); auto; try lra.
        destruct Hok as [H _]. exact H.
    + rewrite <- IH. unfold piecewise. fold (last_error (p :: q :: map fst rest)).
      fold (last_error (q :: map fst rest)). rewrite HpN, HpN2.
      cbn [hd_error]. destruct (Rle_dec x p); [lra|]. destruct (Rle_dec x q); [lra|].
      destruct (Rle_dec pN x); [reflexivity|].
      assert (Hf : find_ind (p :: q :: map fst rest) x = S (find_ind (q :: map fst rest) x)).
      { cbn [find_ind]. destruct (Rle_dec x p); [lra|reflexivity]. }
      assert (Hf1 : (1 <= find_ind (q :: map fst rest) x)%nat) by (apply find_ind_pos; lra).
      rewrite Hf. set (j := find_ind (q :: map fst rest) x) in *.
      destruct j as [|j]; [lia|]. replace (S (S j) - 1)%nat with (S j) by lia.
      replace (S j - 1)%nat with j by lia. reflexivity.
Qed.

Lemma tbl_knot Pp Pv M : good_mid Pp Pv M -> forall rest p a k xk yk, okl Pp Pv p a rest ->
  nth_error (pts_of p a rest) k = Some xk -> nth_error (vals_of p a rest) k = Some yk ->
  tbl M p a rest xk = yk.
Proof.
  intros HM. induction rest as [|[q b] rest IH]; intros p a k xk yk Hok Hk Hy.
  - destruct k as [|k]; [|destruct k; discriminate]. cbv in *. congruence.
  - destruct (okl_tail _ _ _ _ _ _ _ Hok) as (Hok' & Hpq & HPp & HPq & HVa & HVb).
    destruct k as [|k].
    + cbn in Hk, Hy. injection Hk as ->. injection Hy as ->. apply tbl_left. lra.
    + cbn [pts_of vals_of map nth_error] in Hk, Hy.
      change (nth_error (pts_of q b rest) k = Some xk) in Hk.
      change (nth_error (vals_of q b rest) k = Some yk) in Hy.
      specialize (IH q b k xk yk Hok' Hk Hy). cbn [tbl].
      assert (Hq : q <= xk).
      { destruct k as [|k]; cbn in Hk; [injection Hk as ->; lra|].
        apply Rlt_le. destruct Hok' as [Hi _]. eapply increasing_lt; [exact Hi|].
        eapply nth_error_In; eauto. }
      destruct (Rle_dec xk p); [lra|]. destruct (Rle_dec xk q) as [Hle|Hgt]; [|exact IH].
      assert (xk = q) by lra. subst xk. rewrite (gm_r _ _ _ HM) by auto.
      rewrite tbl_left in IH by lra. exact IH.
Qed.

Lemma tbl_right Pp Pv M : good_mid Pp Pv M -> forall rest p a pN vN x, okl Pp Pv p a rest ->
  last_error (pts_of p a rest) = Some pN -> last_error (vals_of p a rest) = Some vN ->
  pN <= x -> tbl M p a rest x = vN.
Proof.
  intros HM. induction rest as [|[q b] rest IH]; intros p a pN vN x Hok HN HV Hx.
  - cbv in HV. injection HV as ->. reflexivity.
  - destruct (okl_tail _ _ _ _ _ _ _ Hok) as (Hok' & Hpq & HPp & HPq & HVa & HVb).
    unfold pts_of, vals_of in HN, HV. simpl map in HN, HV. rewrite last_error_cons in HN, HV.
    assert (q <= pN). { destruct Hok' as [H _]. exact (head_le_last _ q pN H eq_refl HN). }
    specialize (IH q b pN vN x Hok' HN HV Hx). cbn [tbl].
    destruct (Rle_dec x p); [lra|]. destruct (Rle_dec x q); [|exact IH].
    assert (x = q) by lra. subst x. rewrite (gm_r _ _ _ HM) by auto.
    rewrite tbl_left in IH by lra. exact IH.
Qed.

Lemma tbl_between Pp Pv M : good_mid Pp Pv M -> forall rest p a k x1 x2 y1 y2 x, okl Pp Pv p a rest ->
  nth_error (pts_of p a rest) k = Some x1 -> nth_error (pts_of p a rest) (S k) = Some x2 ->
  nth_error (vals_of p a rest) k = Some y1 -> nth_error (vals_of p a rest) (S k) = Some y2 ->
  x1 <= x <= x2 ->
  Rmin y1 y2 <= tbl M p a rest x <= Rmax y1 y2 /\ (x1 < x -> tbl M p a rest x = M x x1 x2 y1 y2).
Proof.
  intros HM. induction rest as [|[q b] rest IH]; intros p a k x1 x2 y1 y2 x Hok H1 H2 H3 H4 Hx.
  - destruct k; discriminate.
  - destruct (okl_tail _ _ _ _ _ _ _ Hok) as (Hok' & Hpq & HPp & HPq & HVa & HVb).
    destruct k as [|k].
    + cbn in H1, H2, H3, H4. injection H1 as ->. injection H2 as ->. injection H3 as ->. injection H4 as ->.
      cbn [tbl]. destruct (Rle_dec x x1) as [Hle|Hgt].
      * split; [|lra]. split; [apply Rmin_l|apply Rmax_l].
      * destruct (Rle_dec x x2); [|lra]. split; [|reflexivity]. apply (gm_b _ _ _ HM); auto. 
    + cbn [pts_of vals_of map nth_error fst snd] in H1, H2, H3, H4.
      change (nth_error (pts_of q b rest) k = Some x1) in H1.
      change (nth_error (pts_of q b rest) (S k) = Some x2) in H2.
      change (nth_error (vals_of q b rest) k = Some y1) in H3.
      change (nth_error (vals_of q b rest) (S k) = Some y2) in H4.
      specialize (IH q b k x1 x2 y1 y2 x Hok' H1 H2 H3 H4 Hx).
      assert (q <= x1).
      { destruct k as [|k]; cbn in H1; [injection H1 as ->; lra|].
        apply Rlt_le. destruct Hok' as [Hi _]. eapply increasing_lt; [exact Hi|].
        eapply nth_error_In; eauto. }
      assert (E : tbl M p a ((q, b) :: rest) x = tbl M q b rest x).
      { cbn [tbl]. destruct (Rle_dec x p); [lra|]. destruct (Rle_dec x q); [|reflexivity].
        assert (x = q) by lra. subst x. rewrite (gm_r _ _ _ HM) by auto.
        rewrite tbl_left by lra. reflexivity. }
      rewrite E. exact IH.
Qed.

Lemma clamp_cont p q x : continuous (fun u => Rmin (Rmax u p) q) x.
Proof.
  apply (continuous_ext (fun u => (((u + p + Rabs (u - p)) / 2) + q - Rabs ((u + p + Rabs (u - p)) / 2 - q)) / 2)).
  - intros u. unfold Rmin, Rmax. unfold Rabs.
    destruct (Rle_dec u p); destruct (Rcase_abs (u - p)); repeat destruct Rle_dec; repeat destruct Rcase_abs; lra.
  - assert (C1 : forall k : R, continuous (fun _ : R => k) x) by (intros; apply continuous_const).
    assert (Ci : continuous (fun u : R => u) x) by apply continuous_id.
    assert (Ca : forall f : R -> R, continuous f x -> continuous (fun u => Rabs (f u)) x).
    { intros f Hf. apply (continuous_comp f Rabs); [exact Hf|]. apply continuous_Rabs. }
    assert (Cp : forall f g : R -> R, continuous f x -> continuous g x -> continuous (fun u => f u + g u) x).
    { intros. now apply (continuous_plus f g x). }
    assert (Cm : forall f g : R -> R, continuous f x -> continuous g x -> continuous (fun u => f u - g u) x).
    { intros. now apply (continuous_minus f g x). }
    assert (Cd : forall f : R -> R, continuous f x -> continuous (fun u => f u / 2) x).
    { intros. now apply (continuous_mult f (fun _ => / 2) x). }
    assert (H1 : continuous (fun u => (u + p + Rabs (u - p)) / 2) x).
    { apply Cd, Cp; [apply Cp; auto|apply Ca, Cm; auto]. }
    apply Cd, Cm; [apply Cp; auto|]. apply Ca, Cm; auto.
Qed.

Lemma clamp_range p q u : p <= q -> p <= Rmin (Rmax u p) q <= q.
Proof.
  intros H. split; [|apply Rmin_r]. apply Rmin_glb; [apply Rmax_r|exact H].
Qed.

Lemma tbl_cont Pp Pv M : good_mid Pp Pv M -> forall rest p a x, okl Pp Pv p a rest ->
  continuous (tbl M p a rest) x.
Proof.
  intros HM. induction rest as [|[q b] rest IH]; intros p a x Hok.
  - apply (continuous_ext (fun _ => a)); [reflexivity|]. apply continuous_const.
  - destruct (okl_tail _ _ _ _ _ _ _ Hok) as (Hok' & Hpq & HPp & HPq & HVa & HVb).
    apply (continuous_ext (fun u => (M (Rmin (Rmax u p) q) p q a b - b) + tbl M q b rest u)).
    + intros u. match goal with |- @eq _ ?a ?b => change (@eq R a b) end.
      cbn [tbl]. destruct (Rle_dec u p) as [Hp|Hp].
      * rewrite Rmax_right, Rmin_left by lra. rewrite (gm_l _ _ _ HM) by auto.
        rewrite tbl_left by lra. ring.
      * rewrite Rmax_left by lra. destruct (Rle_dec u q) as [Hq|Hq].
        -- rewrite Rmin_left by lra. rewrite tbl_left by lra. ring.
        -- rewrite Rmin_right by lra. rewrite (gm_r _ _ _ HM) by auto. ring.
    + apply (continuous_plus (fun u => M (Rmin (Rmax u p) q) p q a b - b) (tbl M q b rest)).
      * apply (continuous_minus (fun u => M (Rmin (Rmax u p) q) p q a b) (fun _ => b)).
        -- apply (continuous_comp (fun u => Rmin (Rmax u p) q) (fun w => M w p q a b)).
           ++ apply clamp_cont.
           ++ apply (gm_c _ _ _ HM); auto. apply clamp_range. lra.
        -- apply continuous_const.
      * apply IH, Hok'.
Qed.

Lemma unzip_table (Pp Pv : R -> Prop) pts vals : length pts = length vals -> pts <> [] ->
  increasing pts -> List.Forall Pp pts -> List.Forall Pv vals ->
  exists p a rest, pts = pts_of p a rest /\ vals = vals_of p a rest /\ okl Pp Pv p a rest.
Proof.
  intros Hl Hn Hi HP HV. destruct pts as [|p pts]; [congruence|]. destruct vals as [|a vals]; [discriminate|].
  injection Hl as Hl. exists p, a, (combine pts vals).
  assert (E1 : map fst (combine pts vals) = pts).
  { clear - Hl. revert vals Hl. induction pts as [|x pts IH]; intros [|y vals] Hl; try discriminate; [reflexivity|].
    simpl. f_equal. apply IH. now injection Hl. }
  assert (E2 : map snd (combine pts vals) = vals).
  { clear - Hl. revert vals Hl. induction pts as [|x pts IH]; intros [|y vals] Hl; try discriminate; [reflexivity|].
    simpl. f_equal. apply IH. now injection Hl. }
  inversion HP; inversion HV; subst. unfold pts_of, vals_of, okl. rewrite E1, E2.
  repeat split; auto. rewrite Forall_forall in *. intros [u v] Huv. simpl. split.
  - apply in_combine_l in Huv. auto.
  - apply in_combine_r in Huv. auto.
Qed.

Lemma lin_bounds a b w : 0 <= w <= 1 -> Rmin a b <= (b - a) * w + a <= Rmax a b.
Proof.
  intros Hw. unfold Rmin, Rmax. destruct (Rle_dec a b).
  - assert (0 <= (b - a) * w) by (apply Rmult_le_pos; lra).
    assert ((b - a) * w <= (b - a) * 1) by (apply Rmult_le_compat_l; lra). lra.
  - assert (0 <= (a - b) * w) by (apply Rmult_le_pos; lra).
    assert ((a - b) * w <= (a - b) * 1) by (apply Rmult_le_compat_l; lra).
    replace ((b - a) * w) with (- ((a - b) * w)) by ring. lra.
Qed.

Lemma frac_01 p q x : p < q -> p <= x <= q -> 0 <= (x - p) / (q - p) <= 1.
Proof.
  intros H Hx. split.
  - apply Rmult_le_pos; [lra|]. apply Rlt_le, Rinv_0_lt_compat. lra.
  - apply (Rmult_le_reg_r (q - p)); [lra|]. unfold Rdiv. rewrite Rmult_assoc, Rinv_l by lra. lra.
Qed.

Definition Mlin (u x1 x2 y1 y2 : R) := (y2 - y1) / (x2 - x1) * (u - x1) + y1.
Definition Mlog (u x1 x2 y1 y2 : R) := exp ((ln y2 - ln y1) / (x2 - x1) * (u - x1) + ln y1).
Definition Msemi (u x1 x2 y1 y2 : R) :=
  (y2 - y1) / (log10 x2 - log10 x1) * (log10 u - log10 x1) + y1.

Lemma good_lin : good_mid (fun _ => True) (fun _ => True) Mlin.
Proof.
  split; unfold Mlin; intros; try (field; lra).
  - replace ((b - a) / (q - p) * (x - p) + a) with ((b - a) * ((x - p) / (q - p)) + a) by (field; lra).
    apply lin_bounds, frac_01; auto.
  - eapply D_cont. dall.
Qed.

Lemma good_log : good_mid (fun _ => True) (fun y => 0 < y) Mlog.
Proof.
  split; unfold Mlog; intros.
  - replace ((ln b - ln a) / (q - p) * (p - p) + ln a) with (ln a) by (field; lra). now apply exp_ln.
  - replace ((ln b - ln a) / (q - p) * (q - p) + ln a) with (ln b) by (field; lra). now apply exp_ln.
  - replace ((ln b - ln a) / (q - p) * (x - p) + ln a) with ((ln b - ln a) * ((x - p) / (q - p)) + ln a) by (field; lra).
    assert (B := lin_bounds (ln a) (ln b) _ (frac_01 p q x H H4)).
    set (z := (ln b - ln a) * ((x - p) / (q - p)) + ln a) in *.
    assert (Hln : forall u v, 0 < u -> 0 < v -> ln u <= ln v -> u <= v).
    { intros u v Hu Hv Huv. rewrite <- (exp_ln u), <- (exp_ln v) by assumption.
      destruct Huv as [Huv|Huv]; [left; now apply exp_increasing|right; now rewrite Huv]. }
    assert (Hexp : forall u v, u <= v -> exp u <= exp v).
    { intros u v [Huv|Huv]; [left; now apply exp_increasing|right; now rewrite Huv]. }
    unfold Rmin, Rmax in *. destruct (Rle_dec (ln a) (ln b)) as [Hle|Hle]; destruct (Rle_dec a b) as [Hab|Hab].
    + split; [rewrite <- (exp_ln a) by assumption|rewrite <- (exp_ln b) by assumption]; apply Hexp; lra.
    + exfalso. apply Hab. now apply Hln.
    + exfalso. apply Hle. destruct Hab as [Hab|Hab]; [left; now apply ln_increasing|right; now rewrite Hab].
    + split; [rewrite <- (exp_ln b) by assumption|rewrite <- (exp_ln a) by assumption]; apply Hexp; lra.
  - eapply D_cont. dall.
Qed.

Lemma good_semi : good_mid (fun x => 0 < x) (fun _ => True) Msemi.
Proof.
  split; unfold Msemi; intros.
  - assert (log10 p < log10 q) by now apply log10_lt. field; lra.
  - assert (log10 p < log10 q) by now apply log10_lt. field; lra.
  - assert (log10 p < log10 q) by now apply log10_lt.
    replace ((b - a) / (log10 q - log10 p) * (log10 x - log10 p) + a)
      with ((b - a) * ((log10 x - log10 p) / (log10 q - log10 p)) + a) by (field; lra).
    apply lin_bounds, frac_01; [assumption|]. split.
    + destruct (Req_dec p x) as [->|]; [lra|]. apply Rlt_le, log10_lt; lra.
    + destruct (Req_dec x q) as [->|]; [lra|]. apply Rlt_le, log10_lt; lra.
  - eapply D_cont. dall. cbv beta. lra.
Qed.

Lemma piecewise_map_vals g pts vals lo hi mid x :
  piecewise pts (map g vals) lo hi mid x =
  piecewise pts vals lo hi (fun x1 x2 y1 y2 => mid x1 x2 (g y1) (g y2)) x.
Proof.
  unfold piecewise. destruct (hd_error pts), (hd_error (rev pts)); try reflexivity.
  destruct (Rle_dec x r); [reflexivity|]. destruct (Rle_dec r0 x); [reflexivity|].
  destruct (nth_error pts (find_ind pts x - 1)), (nth_error pts (find_ind pts x)); try reflexivity.
  rewrite !nth_error_map.
  destruct (nth_error vals (find_ind pts x - 1)), (nth_error vals (find_ind pts x)); reflexivity.
Qed.

Lemma last_error_map g l : last_error (map g l) = omap g (last_error l).
Proof. unfold last_error. rewrite <- map_rev. now destruct (rev l). Qed.

Lemma Forall_True {A} (l : list A) : List.Forall (fun _ => True) l.
Proof. induction l; constructor; auto. Qed.

Lemma table_repr i pts vals : is_table i pts vals ->
  exists Pp Pv M p a rest, good_mid Pp Pv M /\ okl Pp Pv p a rest /\
    pts = pts_of p a rest /\ vals = vals_of p a rest /\
    forall x, ivalue i x = Some (tbl M p a rest x).
Proof.
  intros (Hl & Hn & Hi & [-> | [[-> HF] | [-> HF]]]).
  - destruct (unzip_table (fun _ => True) (fun _ => True) pts vals Hl Hn Hi (Forall_True _) (Forall_True _))
      as (p & a & rest & E1 & E2 & Hok).
    exists (fun _ => True), (fun _ => True), Mlin, p, a, rest. split; [apply good_lin|].
    repeat split; auto; try apply Hok. intros x. cbn [ivalue].
    destruct (hd_last_exist vals (vals_nonempty _ _ Hl Hn)) as (v0 & vN & Hv0 & HvN & _).
    rewrite HvN. rewrite E2 in Hv0. injection Hv0 as <-. rewrite E1, E2. cbn [vals_of hd_error].
    rewrite E2 in HvN.
    exact (piecewise_tbl _ _ Mlin good_lin rest p a x vN Hok HvN).
  - destruct (unzip_table (fun _ => True) (fun y => 0 < y) pts vals Hl Hn Hi (Forall_True _) HF)
      as (p & a & rest & E1 & E2 & Hok).
    exists (fun _ => True), (fun y => 0 < y), Mlog, p, a, rest. split; [apply good_log|].
    repeat split; auto; try apply Hok. intros x. cbn [ivalue].
    destruct (hd_last_exist vals (vals_nonempty _ _ Hl Hn)) as (v0 & vN & Hv0 & HvN & Hin0 & HinN).
    rewrite last_error_map, HvN, piecewise_map_vals. cbn [omap].
    rewrite Forall_forall in HF. rewrite (exp_ln vN) by auto.
    rewrite E2 in Hv0. injection Hv0 as <-. rewrite E1, E2. cbn [vals_of map hd_error omap].
    rewrite (exp_ln a) by auto. rewrite E2 in HvN.
    exact (piecewise_tbl _ _ Mlog good_log rest p a x vN Hok HvN).
  - destruct (unzip_table (fun x => 0 < x) (fun _ => True) pts vals Hl Hn Hi HF (Forall_True _))
      as (p & a & rest & E1 & E2 & Hok).
    exists (fun x => 0 < x), (fun _ => True), Msemi, p, a, rest. split; [apply good_semi|].
    repeat split; auto; try apply Hok. intros x. cbn [ivalue].
    destruct (hd_last_exist vals (vals_nonempty _ _ Hl Hn)) as (v0 & vN & Hv0 & HvN & _).
    rewrite HvN. rewrite E2 in Hv0. injection Hv0 as <-. rewrite E1, E2. cbn [vals_of hd_error].
    rewrite E2 in HvN.
    exact (piecewise_tbl _ _ Msemi good_semi rest p a x vN Hok HvN).
Qed.

Lemma table_knot i pts vals k xk yk : is_table i pts vals ->
  nth_error pts k = Some xk -> nth_error vals k = Some yk -> ivalue i xk = Some yk.
Proof.
  intros H Hk Hy. destruct (table_repr i pts vals H) as (Pp & Pv & M & p & a & rest & HM & Hok & -> & -> & E).
  rewrite E. f_equal. eapply tbl_knot; eauto.
Qed.

Lemma table_clamp i pts vals p0 v0 pN vN : is_table i pts vals ->
  hd_error pts = Some p0 -> hd_error vals = Some v0 ->
  hd_error (rev pts) = Some pN -> hd_error (rev vals) = Some vN ->
  (forall x, x <= p0 -> ivalue i x = Some v0) /\ (forall x, pN <= x -> ivalue i x = Some vN).
Proof.
  intros H H0 Hv0 HN HvN. destruct (table_repr i pts vals H) as (Pp & Pv & M & p & a & rest & HM & Hok & -> & -> & E).
  injection H0 as <-. injection Hv0 as <-. split; intros x Hx; rewrite E; f_equal.
  - now apply tbl_left.
  - eapply tbl_right; eauto.
Qed.

Lemma table_between i pts vals k x1 x2 y1 y2 x : is_table i pts vals ->
  nth_error pts k = Some x1 -> nth_error pts (S k) = Some x2 ->
  nth_error vals k = Some y1 -> nth_error vals (S k) = Some y2 -> x1 <= x <= x2 ->
  exists v, ivalue i x = Some v /\ Rmin y1 y2 <= v <= Rmax y1 y2.
Proof.
  intros H H1 H2 H3 H4 Hx. destruct (table_repr i pts vals H) as (Pp & Pv & M & p & a & rest & HM & Hok & -> & -> & E).
  eexists. split; [apply E|]. eapply tbl_between; eauto.
Qed.

Lemma table_cont i pts vals : is_table i pts vals ->
  exists f, (forall x, ivalue i x = Some (f x)) /\ forall x, continuous f x.
Proof.
  intros H. destruct (table_repr i pts vals H) as (Pp & Pv & M & p & a & rest & HM & Hok & -> & -> & E).
  exists (tbl M p a rest). split; [exact E|]. intros x. eapply tbl_cont; eauto.
Qed.

(** *** The validity check of the generic piecewise interpolate *)
Lemma gen_valid_out_of_range :
  exists pts fs x, ivalid (IGen pts fs) = true /\ ivalue (IGen pts fs) x = None /\
    (forall f, In f fs -> ivalue f x <> None).
Proof.
  exists [0; 1; 2], [IConst 1; IConst 2], (3 / 2). split.
  - unfold ivalid. simpl. destruct (Rlt_dec 1 0); [lra|]. destruct (Rlt_dec 2 1); [lra|]. reflexivity.
  - split.
    + cbn. destruct (Rle_dec (3 / 2) 0); [lra|]. destruct (Rle_dec 2 (3 / 2)); [lra|].
      destruct (Rle_dec (3 / 2) 1); [lra|]. destruct (Rle_dec (3 / 2) 2); [|lra]. reflexivity.
    + intros f [<-|[<-|[]]]; discriminate.
Qed.

Lemma gen_total pts fs x : pts <> [] -> length fs = S (length pts) ->
  (forall f, In f fs -> ivalue f x <> None) -> ivalue (IGen pts fs) x <> None.
Proof.
  intros Hn Hl HF. destruct (hd_last_exist pts Hn) as (p0 & pN & H0 & HN & _).
  cbn [ivalue]. fold (last_error pts). rewrite H0, HN.
  destruct fs as [|f0 fs]; [discriminate|].
  destruct (Rle_dec x p0); [apply HF; now left|].
  destruct (Rle_dec pN x).
  - destruct (exists_last (l := f0 :: fs)) as (pre & g & Hg); [congruence|].
    rewrite Hg, map_app, rev_app_distr. cbn. apply HF. rewrite Hg. apply in_or_app. right. now left.
  - destruct (nth_error_some (f0 :: fs) (find_ind pts x)) as (g & Hg).
    { rewrite Hl. generalize (find_ind_lt_len pts x pN HN). intros HH. specialize (HH ltac:(lra)). lia. }
    rewrite (map_nth_error _ _ _ Hg). cbn. apply HF. eapply nth_error_In; eauto.
Qed.

Lemma piecewise_total pts vals lo hi M x : pts <> [] -> length pts = length vals ->
  piecewise pts vals (Some lo) (Some hi) M x <> None.
Proof.
  intros Hn Hl. destruct (hd_last_exist pts Hn) as (p0 & pN & H0 & HN & _).
  unfold piecewise. fold (last_error pts). rewrite H0, HN.
  destruct (Rle_dec x p0); [discriminate|]. destruct (Rle_dec pN x); [discriminate|].
  assert (Hf := find_ind_lt_len pts x pN HN ltac:(lra)).
  destruct (nth_error_some pts (find_ind pts x)) as (? & ->); [exact Hf|].
  destruct (nth_error_some pts (find_ind pts x - 1)) as (? & ->); [lia|].
  destruct (nth_error_some vals (find_ind pts x)) as (? & ->); [lia|].
  destruct (nth_error_some vals (find_ind pts x - 1)) as (? & ->); [lia|]. discriminate.
Qed.

Lemma valid_table_total i x pts vals : pts <> [] -> ivalid i = true ->
  (i = IPLin pts vals \/ i = ILogLin pts vals \/ i = ISemiLogX pts vals) ->
  ivalue i x <> None /\ iderivative i x <> None.
Proof.
  intros Hn Hv [-> | [-> | ->]]; cbn [ivalid] in Hv; rewrite ?andb_true_iff in Hv.
  - destruct Hv as [_ Hl]. apply Nat.eqb_eq in Hl. cbn [ivalue iderivative].
    destruct (hd_last_exist vals (vals_nonempty _ _ Hl Hn)) as (v0 & vN & -> & -> & _).
    split; now apply piecewise_total.
  - destruct Hv as [[_ Hl] _]. apply Nat.eqb_eq in Hl. cbn [ivalue iderivative].
    assert (Hl' : length pts = length (map ln vals)) by (now rewrite map_length).
    destruct (hd_last_exist (map ln vals) (vals_nonempty _ _ Hl' Hn)) as (v0 & vN & -> & -> & _).
    split; now apply piecewise_total.
  - destruct Hv as [[_ Hl] _]. apply Nat.eqb_eq in Hl. cbn [ivalue iderivative].
    destruct (hd_last_exist vals (vals_nonempty _ _ Hl Hn)) as (v0 & vN & -> & -> & _).
    split; now apply piecewise_total.
Qed.

Lemma poly_from_roots_spec roots x :
  polyval (poly_from_roots roots) x = Some (prod_roots roots x) /\
  length (poly_from_roots roots) = S (length roots) /\ hd 0 (poly_from_roots roots) = 1.
Proof.
  destruct (fold_root_step_shape roots [1]) as (H1 & H2 & H3); [congruence|].
  unfold poly_from_roots. split; [|split].
  - rewrite polyval_spec.
    + rewrite poly_spec_rev, fold_root_step. simpl. f_equal. ring.
    + intros E. apply (f_equal (@length R)) in E. rewrite rev_length, H1 in E. discriminate.
  - rewrite rev_length, H1. reflexivity.
  - now rewrite hd_rev_last, H2.
Qed.
