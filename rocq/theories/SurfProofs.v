From Verif Require Import Base.
From Verif Require Import Diff.
From Verif Require Import NemlMathModel.
From Verif Require Import NemlMathSpec.
From Verif Require Import NemlMathProofs.
From Verif Require Import SurfModel.
From Verif Require Import SurfSpec.

Lemma eps_pos : 0 < eps.
Proof. unfold eps. apply Rinv_0_lt_compat. apply pow_lt. lra. Qed.

Lemma norm2_ext n a b : veq n a b -> norm2 n a = norm2 n b.
Proof. intros H. unfold norm2. f_equal. apply dot_ext; assumption. Qed.

Lemma normalize_big n a : eps < norm2 n a -> normalize_vec n a = fun i => a i / norm2 n a.
Proof.
  intros H. unfold normalize_vec. pose proof eps_pos.
  rewrite (Rabs_pos_eq (norm2 n a)) by lra.
  destruct (Rlt_dec (norm2 n a) eps); [lra|reflexivity].
Qed.

Lemma normalize_unit n a : eps < norm2 n a -> dot n (normalize_vec n a) (normalize_vec n a) = 1.
Proof.
  intros H. pose proof eps_pos. rewrite normalize_big by assumption. unfold dot.
  transitivity (rsum n (fun i => / (norm2 n a * norm2 n a) * (a i * a i))).
  { apply rsum_ext. intros. field. lra. }
  rewrite rsum_scal. fold (dot n a a). rewrite norm2_sqr. field.
  pose proof (norm2_pos_dot n a). lra.
Qed.

Lemma D_normalize n (x : R -> vec) t v : path n x t v -> eps < norm2 n (x t) ->
  path n (fun u => normalize_vec n (x u)) t
    (fun i => (v i - normalize_vec n (x t) i * dot n (normalize_vec n (x t)) v) / norm2 n (x t)).
Proof.
  intros H Hn i Hi. pose proof eps_pos as He.
  assert (Hd := D_norm2 n x t v H ltac:(lra)).
  apply D_loc with (fun u => x u i / norm2 n (x u)).
  - generalize (loc_gt _ _ _ _ Hd Hn). apply filter_imp. intros u Hu. cbv beta.
    rewrite normalize_big by assumption. reflexivity.
  - eapply D_eq. apply D_div. apply H; assumption. exact Hd. lra.
    cbv beta. rewrite normalize_big by assumption.
    replace (dot n (fun i0 => x t i0 / norm2 n (x t)) v) with (dot n (x t) v / norm2 n (x t)).
    field. lra.
    unfold dot, Rdiv. rewrite <- rsum_scal_r. apply rsum_ext. intros. ring.
Qed.

Lemma path_dev (s : R -> vec) t v : path 6 s t v -> path 6 (fun u => dev_vec (s u)) t (dev_vec v).
Proof.
  intros H i Hi. unfold dev_vec.
  assert (H0 := H 0%nat ltac:(lia)). assert (H1 := H 1%nat ltac:(lia)). assert (H2 := H 2%nat ltac:(lia)).
  assert (Hj := H i Hi). cbv beta in *.
  destruct (Nat.ltb i 3).
  - eapply D_eq. dall; try eassumption; lra. cbv beta. field.
  - exact Hj.
Qed.

Lemma path_ext n (c : R -> vec) t v w : path n c t v -> veq n v w -> path n c t w.
Proof. intros H E i Hi. rewrite <- (E i Hi). exact (H i Hi). Qed.

Lemma path_rel (s q : R -> vec) t vs vq : path 6 s t vs -> path 7 q t vq ->
  path 6 (fun u => rel (s u) (q u)) t (rel vs vq).
Proof.
  intros Hs Hq i Hi. unfold rel, vadd, tail1. apply D_plus.
  - apply path_dev in Hs. exact (Hs i Hi).
  - apply Hq. lia.
Qed.

Definition trace_ (v : vec) : R := v 0%nat + v 1%nat + v 2%nat.
Lemma tr2_usym v : tr2 (usym v) = trace_ v.
Proof. reflexivity. Qed.
Lemma rel_traceless s q : trace_ (tail1 q) = 0 -> trace_ (rel s q) = 0.
Proof. unfold trace_, rel, vadd, dev_vec. simpl. intros. lra. Qed.
Lemma normalize_traceless v : eps < norm2 6 v -> trace_ v = 0 -> trace_ (normalize_vec 6 v) = 0.
Proof.
  intros H T. pose proof eps_pos. rewrite normalize_big by assumption. unfold trace_ in *. 
  transitivity ((v 0%nat + v 1%nat + v 2%nat) / norm2 6 v); [field; lra|]. rewrite T. field. lra.
Qed.
Lemma dot_traceless_dev n v : trace_ n = 0 -> dot 6 n (dev_vec v) = dot 6 n v.
Proof. unfold trace_, dot, dev_vec. simpl. intros H. replace (n 2%nat) with (- n 0%nat - n 1%nat) by lra. field. Qed.
Lemma dot_split n a b : dot 6 n (fun i => a i + b i) = dot 6 n a + dot 6 n b.
Proof. unfold dot. simpl. ring. Qed.

(** the three pieces common to both surfaces *)
Lemma dot7 d v : dot 7 d v = d 0%nat * v 0%nat + dot 6 (tail1 d) (tail1 v).
Proof. unfold dot, tail1. simpl. ring. Qed.

Lemma norm_grad (s q : R -> vec) t vs vq : path 6 s t vs -> path 7 q t vq ->
  kin_domain 0 (s t) (q t) ->
  is_derive (fun u => norm2 6 (rel (s u) (q u))) t
    (dot 6 (normalize_vec 6 (rel (s t) (q t))) vs + dot 6 (normalize_vec 6 (rel (s t) (q t))) (tail1 vq)).
Proof.
  intros Hs Hq [HX Hn]. rewrite tr2_usym in HX. change (eps < norm2 6 (rel (s t) (q t))) in Hn.
  change (trace_ (tail1 (q t)) = 0) in HX.
  pose proof eps_pos as He.
  eapply D_eq. apply (D_norm2 6 _ t _ (path_rel _ _ _ _ _ Hs Hq)). lra.
  set (r := rel (s t) (q t)) in *.
  assert (Ht : trace_ (normalize_vec 6 r) = 0) by (apply normalize_traceless; [assumption|apply rel_traceless; assumption]).
  transitivity (dot 6 (normalize_vec 6 r) (rel vs vq)).
  - rewrite normalize_big by assumption. unfold dot, Rdiv. rewrite <- rsum_scal_r. apply rsum_ext. intros. ring.
  - unfold rel, vadd. rewrite dot_split, dot_traceless_dev by assumption. reflexivity.
Qed.

Lemma normal_jac (s q : R -> vec) t vs vq : path 6 s t vs -> path 7 q t vq ->
  kin_domain 0 (s t) (q t) ->
  path 6 (fun u => normalize_vec 6 (rel (s u) (q u))) t
    (vadd (mv 6 (fun i j => (delta i j - iv i * jv j - normalize_vec 6 (rel (s t) (q t)) i * normalize_vec 6 (rel (s t) (q t)) j) / norm2 6 (rel (s t) (q t))) vs)
          (mv 6 (i1_xx (s t) (q t)) (tail1 vq))).
Proof.
  intros Hs Hq [HX Hn]. rewrite tr2_usym in HX. change (eps < norm2 6 (rel (s t) (q t))) in Hn.
  change (trace_ (tail1 (q t)) = 0) in HX.
  pose proof eps_pos as He.
  eapply path_ext. apply (D_normalize 6 _ t _ (path_rel _ _ _ _ _ Hs Hq) Hn).
  intros i Hi. cbv beta. unfold i1_xx.
  set (r := rel (s t) (q t)) in *.
  assert (Ht : trace_ (normalize_vec 6 r) = 0) by (apply normalize_traceless; [assumption|apply rel_traceless; assumption]).
  set (n := normalize_vec 6 r) in *. set (nv := norm2 6 r) in *.
  unfold rel, vadd. rewrite dot_split, dot_traceless_dev by assumption.
  unfold mv.
  transitivity (((dev_vec vs i + tail1 vq i) - n i * (dot 6 n vs + dot 6 n (tail1 vq))) / nv); [reflexivity|].
  do 6 (destruct i as [|i]; [unfold dot, dev_vec, iv, jv, delta; simpl; field; lra|]). lia.
Qed.

Lemma nv_guard s q (x : R) : eps < norm2 6 (rel s q) -> (if Rlt_dec 0 (norm2 6 (rel s q)) then x else 0) = x.
Proof. intros H. pose proof eps_pos. destruct (Rlt_dec 0 (norm2 6 (rel s q))); [reflexivity|lra]. Qed.

Lemma mv_ext n (A B : mat) v i : (forall j, (j < n)%nat -> A i j = B i j) -> mv n A v i = mv n B v i.
Proof. intros H. unfold mv. apply rsum_ext. intros j Hj. rewrite H by assumption. reflexivity. Qed.

Lemma mv7 (A : mat) v i : mv 7 A v i = A i 0%nat * v 0%nat + mv 6 (fun a b => A a (S b)) (tail1 v) i.
Proof. unfold mv, tail1. simpl. ring. Qed.

Lemma j2_exact : surface_exact kin_domain IsoKinJ2.
Proof.
  intros T. split; [|split].
  - intros s q t vs vq Hs Hq HP. simpl. unfold j2_f.
    eapply D_eq. apply D_plus. apply norm_grad; eassumption.
    apply D_mult. apply D_const. apply Hq. simpl. lia.
    cbv beta. rewrite dot7. unfold j2_dq, j2_ds, tail1. unfold dot; simpl; ring.
  - intros s q t vs vq Hs Hq HP. simpl ys_ds. unfold j2_ds.
    eapply path_ext. apply normal_jac; eassumption.
    destruct HP as [HX Hn].
    intros i Hi. unfold vadd. simpl. f_equal.
    + apply mv_ext. intros j Hj. unfold j2_dss. cbv zeta. rewrite nv_guard by exact Hn. reflexivity.
    + rewrite mv7. unfold j2_dsq at 1. rewrite Rmult_0_l, Rplus_0_l. apply mv_ext. intros j Hj.
      unfold j2_dsq, j2_xx, i1_xx. cbv zeta. rewrite nv_guard by exact Hn. reflexivity.
  - intros s q t vs vq Hs Hq HP. simpl. intros i Hi.
    destruct i as [|i].
    + eapply D_eq. unfold j2_dq. apply D_const. unfold vadd. rewrite mv7. unfold mv, j2_dqs, j2_dqq. simpl. ring.
    + assert (Hp := normal_jac _ _ _ _ _ Hs Hq HP i ltac:(lia)).
      eapply D_eq. exact Hp. destruct HP as [HX Hn].
      unfold vadd. f_equal.
      * unfold mv. apply rsum_ext. intros j Hj. unfold j2_dqs, j2_dss. cbv zeta. rewrite nv_guard by exact Hn. reflexivity.
      * rewrite mv7. unfold j2_dqq at 1. rewrite Rmult_0_l, Rplus_0_l. unfold mv. apply rsum_ext. intros j Hj.
        unfold j2_dqq, j2_xx, i1_xx. cbv zeta. rewrite nv_guard by exact Hn. reflexivity.
Qed.

(** *** the pressure term *)
Lemma path_trace (s : R -> vec) t v : path 6 s t v -> is_derive (fun u => s u 0%nat + s u 1%nat + s u 2%nat) t (trace_ v).
Proof.
  intros H. unfold trace_. apply D_plus; [apply D_plus|]; apply H; lia.
Qed.

Lemma D_sgnpow (x : R -> R) t v k l : is_derive x t v -> x t <> 0 -> 0 <= k ->
  is_derive (fun u => copysign (k * cpow (Rabs (x u)) l) (x u)) t (k * l * cpow (Rabs (x t)) (l - 1) * v).
Proof.
  intros H Hn Hk. destruct (Rlt_or_le (x t) 0) as [Hl|Hg].
  - apply D_loc with (fun u => - (k * cpow (- x u) l)).
    + generalize (loc_lt _ _ _ _ H Hl). apply filter_imp. intros u Hu. unfold copysign.
      destruct (Rlt_dec (x u) 0); [|lra]. rewrite (Rabs_left (x u)) by assumption.
      rewrite Rabs_pos_eq; [reflexivity|]. rewrite cpow_pos by lra. apply Rmult_le_pos; [lra|]. apply Rlt_le, exp_pos.
    + eapply D_eq. dall; try eassumption. lra. cbv beta. rewrite (Rabs_left (x t)) by assumption. ring.
  - assert (Hg' : 0 < x t) by lra.
    apply D_loc with (fun u => (k * cpow (x u) l)).
    + generalize (loc_gt _ _ _ _ H Hg'). apply filter_imp. intros u Hu. unfold copysign.
      destruct (Rlt_dec (x u) 0); [lra|]. rewrite (Rabs_pos_eq (x u)) by lra.
      rewrite Rabs_pos_eq; [reflexivity|]. rewrite cpow_pos by lra. apply Rmult_le_pos; [lra|]. apply Rlt_le, exp_pos.
    + eapply D_eq. dall; try eassumption. cbv beta. rewrite (Rabs_pos_eq (x t)) by lra. ring.
Qed.

Lemma D_abspow (x : R -> R) t v k l : is_derive x t v -> x t <> 0 -> 0 <= k * l ->
  is_derive (fun u => k * cpow (Rabs (x u)) l) t (copysign (k * l * cpow (Rabs (x t)) (l - 1)) (x t) * v).
Proof.
  intros H Hn Hk. 
  assert (Hp : 0 <= k * l * cpow (Rabs (x t)) (l - 1)).
  { apply Rmult_le_pos; [assumption|]. rewrite cpow_pos by (apply Rabs_pos_lt; assumption). apply Rlt_le, exp_pos. }
  destruct (Rlt_or_le (x t) 0) as [Hl|Hg].
  - eapply D_eq. apply D_mult. apply D_const. apply D_cpow. apply D_Rabs_neg. eassumption. assumption. cbv beta. rewrite Rabs_left; lra.
    cbv beta. unfold copysign. destruct (Rlt_dec (x t) 0); [|lra]. rewrite (Rabs_pos_eq (k * l * _)) by assumption. ring.
  - eapply D_eq. apply D_mult. apply D_const. apply D_cpow. apply D_Rabs_pos. eassumption. lra. cbv beta. rewrite Rabs_pos_eq; lra.
    cbv beta. unfold copysign. destruct (Rlt_dec (x t) 0); [lra|]. rewrite (Rabs_pos_eq (k * l * _)) by assumption. ring.
Qed.

Lemma i1_exact h l : (forall T, 0 <= h T) -> (forall T, 0 <= h T * l T * (l T - 1)) ->
  surface_exact (fun T s q => kin_domain T s q /\ s 0%nat + s 1%nat + s 2%nat <> 0) (IsoKinJ2I1 h l).
Proof.
  intros Hh Hl T. split; [|split].
  - intros s q t vs vq Hs Hq [HP Ht]. simpl. unfold i1_f.
    eapply D_eq. apply D_plus. apply D_plus. apply norm_grad; eassumption.
    apply D_mult. apply D_const. apply Hq. simpl. lia.
    apply D_sgnpow. apply path_trace; eassumption. exact Ht. apply Hh.
    cbv beta. rewrite dot7. unfold i1_dq, i1_ds, tail1, i1_dsh, vadd, trace_, dot. simpl. ring.
  - intros s q t vs vq Hs Hq [HP Ht]. simpl ys_ds. unfold i1_ds.
    intros i Hi. unfold vadd at 1. eapply D_eq. apply D_plus. exact (normal_jac _ _ _ _ _ Hs Hq HP i Hi).
    + instantiate (1 := i1_iv2 h l (s t) T i * trace_ vs). unfold i1_dsh, i1_iv2. destruct (Nat.ltb i 3).
      * eapply D_eq. apply D_abspow. apply path_trace; eassumption. exact Ht. apply Hl.
        cbv beta. replace (l T - 1 - 1) with (l T - 2) by ring. reflexivity.
      * eapply D_eq. apply D_const. ring.
    + unfold vadd. simpl ys_dss; simpl ys_dsq; simpl ys_n. rewrite mv7. unfold i1_dsq at 1. rewrite Rmult_0_l, Rplus_0_l.
      unfold i1_dss. cbv zeta. unfold i1_dsq.
      match goal with |- ?a + ?b + ?c = ?d + ?e => change e with b; cut (a + c = d); [intros <-; ring|] end.
      unfold mv, trace_. simpl. unfold jv. simpl. ring.
  - intros s q t vs vq Hs Hq [HP Ht]. simpl. intros i Hi.
    destruct i as [|i].
    + eapply D_eq. unfold i1_dq. apply D_const. unfold vadd. rewrite mv7. unfold mv, i1_dqs, i1_dqq. simpl. ring.
    + assert (Hp := normal_jac _ _ _ _ _ Hs Hq HP i ltac:(lia)).
      eapply D_eq. exact Hp.
      unfold vadd. f_equal.
      rewrite mv7. unfold i1_dqq at 1. rewrite Rmult_0_l, Rplus_0_l. reflexivity.
Qed.

(** *** IsoFunction *)
Lemma path_expand q t vq : path 1 q t vq -> forall n, path n (fun u => expand_hist (q u)) t (expand_hist vq).
Proof.
  intros H n i Hi. destruct i as [|i]; simpl.
  - apply H; lia.
  - apply D_const.
Qed.
Lemma dot_expand n d v : (1 <= n)%nat -> dot n d (expand_hist v) = d 0%nat * v 0%nat.
Proof.
  intros H. destruct n as [|n]; [lia|]. clear H. unfold dot. induction n as [|n IH].
  - simpl. ring.
  - change (rsum (S n) (fun i => d i * expand_hist v i) + d (S n) * 0 = d 0%nat * v 0%nat). rewrite IH. ring.
Qed.

Lemma isofunction_exact P b : (1 <= ys_n b)%nat -> surface_exact P b ->
  surface_exact (fun T s q => P T s (expand_hist q)) (IsoFunction b).
Proof.
  intros Hn H T. destruct (H T) as [H1 [H2 H3]]. split; [|split].
  - intros s q t vs vq Hs Hq HP. simpl.
    assert (E := H1 s (fun u => expand_hist (q u)) t vs _ Hs (path_expand _ _ _ Hq _) HP). cbv beta in E.
    rewrite dot_expand in E by assumption. eapply D_eq. exact E. unfold dot. simpl. ring.
  - intros s q t vs vq Hs Hq HP. simpl.
    assert (E := H2 s (fun u => expand_hist (q u)) t vs _ Hs (path_expand _ _ _ Hq _) HP). cbv beta in E.
    eapply path_ext. exact E. intros i Hi. unfold vadd. f_equal.
    transitivity (dot (ys_n b) (ys_dsq b (s t) (expand_hist (q t)) T i) (expand_hist vq)); [reflexivity|].
    rewrite dot_expand by assumption. unfold mv. simpl. ring.
  - intros s q t vs vq Hs Hq HP. simpl.
    assert (E := H3 s (fun u => expand_hist (q u)) t vs _ Hs (path_expand _ _ _ Hq _) HP 0%nat ltac:(lia)). cbv beta in E.
    intros i Hi. eapply D_eq. exact E. unfold vadd. f_equal.
    transitivity (dot (ys_n b) (ys_dqq b (s t) (expand_hist (q t)) T 0%nat) (expand_hist vq)); [reflexivity|].
    rewrite dot_expand by assumption. unfold mv. simpl. ring.
Qed.

Lemma exact_weaken (P Q : R -> vec -> vec -> Prop) Y : (forall T s q, Q T s q -> P T s q) -> surface_exact P Y -> surface_exact Q Y.
Proof.
  intros W H T. destruct (H T) as [H1 [H2 H3]]. split; [|split]; intros s q t vs vq Hs Hq HP.
  - apply H1; auto. - apply H2; auto. - apply H3; auto.
Qed.

Lemma iso_dom_kin T s q : iso_domain T s q -> kin_domain T s (expand_hist q).
Proof.
  intros H. split.
  - rewrite tr2_usym. unfold trace_, backstress, expand_hist. ring.
  - rewrite (norm2_ext _ _ (dev_vec s)). exact H. intros i Hi. unfold relative_stress, backstress. simpl. ring.
Qed.

Lemma isoj2_exact : surface_exact iso_domain IsoJ2.
Proof.
  apply exact_weaken with (fun T s q => kin_domain T s (expand_hist q)). apply iso_dom_kin.
  apply (isofunction_exact kin_domain IsoKinJ2). simpl; lia. apply j2_exact.
Qed.
Lemma isoj2i1_exact h l : (forall T, 0 <= h T) -> (forall T, 0 <= h T * l T * (l T - 1)) ->
  surface_exact (fun T s q => iso_domain T s q /\ s 0%nat + s 1%nat + s 2%nat <> 0) (IsoJ2I1 h l).
Proof.
  intros Hh Hl.
  apply exact_weaken with (fun T s q => kin_domain T s (expand_hist q) /\ s 0%nat + s 1%nat + s 2%nat <> 0).
  { intros T s q [A B]. split; [apply iso_dom_kin with (1 := A)|exact B]. }
  apply (isofunction_exact (fun T s q => kin_domain T s q /\ s 0%nat + s 1%nat + s 2%nat <> 0) (IsoKinJ2I1 h l)). simpl; lia. apply i1_exact; assumption.
Qed.

(** *** pressure insensitivity *)
Lemma dev_add_pressure p s i : dev_vec (add_pressure p s) i = dev_vec s i.
Proof. unfold dev_vec, add_pressure. simpl. destruct (Nat.ltb i 3); [field|reflexivity]. Qed.
Lemma rel_add_pressure p s q : rel (add_pressure p s) q = rel s q.
Proof. apply FunctionalExtensionality.functional_extensionality. intros i. unfold rel, vadd. rewrite dev_add_pressure. reflexivity. Qed.

(** ** refutations *)
Definition e0 : vec := fun i => match i with O => 1 | _ => 0 end.
Definition e1 : vec := fun i => match i with 1%nat => 1 | _ => 0 end.
Lemma dot_e0 n d : (1 <= n)%nat -> dot n d e0 = d 0%nat.
Proof. intros H. change e0 with (expand_hist e0). rewrite dot_expand by assumption. simpl. ring. Qed.
Lemma dot_zero n d : dot n d (fun _ => 0) = 0.
Proof. unfold dot. transitivity (rsum n (fun _ => 0)); [apply rsum_ext; intros; ring|apply rsum_0]. Qed.
Lemma eps_lt_1 : eps < 1 / 2.
Proof. unfold eps. replace (1/2) with (/ 2 ^ 1) by (simpl; field). apply Rinv_lt_contravar. apply Rmult_lt_0_compat; apply pow_lt; lra. apply Rlt_pow; [lra|lia]. Qed.
Lemma norm_gt a k : 0 <= k -> k * k < dot 6 a a -> k < norm2 6 a.
Proof. intros H1 H2. unfold norm2. rewrite <- (sqrt_square k) by assumption. apply sqrt_lt_1; nra. Qed.

Lemma j2_nondev_refuted : ~ surface_exact (fun T s q => eps < norm2 6 (relative_stress s q)) IsoKinJ2.
Proof.
  intros H. destruct (H 0) as [H1 _].
  assert (Hn : eps < norm2 6 (relative_stress (fun i => 0 + 0 * e0 i) e1)).
  { apply norm_gt. apply Rlt_le, eps_pos. pose proof eps_pos. pose proof eps_lt_1.
    unfold dot, relative_stress, backstress, dev_vec, e1, e0. simpl. nra. }
  assert (E := H1 (fun u i => 0 + u * e0 i) (fun _ => e1) 0 e0 (fun _ => 0) (path_line 6 (fun _ => 0) e0) ltac:(intros i Hi; apply D_const) Hn).
  cbv beta in E. rewrite dot_zero, dot_e0, Rplus_0_r in E by lia.
  assert (HR := path_rel (fun u i => 0 + u * e0 i) (fun _ => e1) 0 e0 (fun _ => 0) (path_line 6 (fun _ => 0) e0) ltac:(intros i Hi; apply D_const)).
  assert (E2 : is_derive (fun u => ys_f IsoKinJ2 (fun i => 0 + u * e0 i) e1 0) 0 (2/3)).
  { simpl. unfold j2_f. eapply D_eq. apply D_plus. apply (D_norm2 6 _ _ _ HR).
    pose proof eps_pos. change (norm2 6 (rel (fun i => 0 + 0 * e0 i) e1)) with (norm2 6 (relative_stress (fun i => 0 + 0 * e0 i) e1)). lra.
    apply D_const.
    replace (norm2 6 (rel (fun i => 0 + 0 * e0 i) e1)) with 1.
    unfold dot, rel, vadd, dev_vec, tail1, e0, e1. simpl. field.
    unfold norm2. replace (dot 6 _ _) with 1. rewrite sqrt_1. reflexivity.
    unfold dot, rel, vadd, dev_vec, tail1, e0, e1. simpl. field. }
  assert (U := eq_trans (eq_sym (is_derive_unique _ _ _ E2)) (is_derive_unique _ _ _ E)).
  simpl in U. unfold j2_ds in U. rewrite normalize_big in U by exact Hn.
  unfold norm2 in U. replace (dot 6 (rel _ _) (rel _ _)) with 1 in U.
  rewrite sqrt_1 in U. unfold rel, vadd, dev_vec, tail1, e0, e1 in U. simpl in U. lra.
  unfold dot, rel, vadd, dev_vec, tail1, e0, e1. simpl. field.
Qed.

(** The witness for the I1 refutations: uniaxial stress 1, no backstress, moving along the
    hydrostatic direction (the relative stress does not change). *)
Definition hyd : vec := fun i => if Nat.ltb i 3 then 1 else 0.
Lemma w_dom (h l : R -> R) : kin_domain 0 e0 (fun _ => 0) /\ e0 0%nat + e0 1%nat + e0 2%nat <> 0.
Proof.
  split; [split|].
  - rewrite tr2_usym. unfold trace_, backstress. ring.
  - apply norm_gt. apply Rlt_le, eps_pos. pose proof eps_pos. pose proof eps_lt_1.
    unfold dot, relative_stress, backstress, dev_vec, e0. simpl. nra.
  - unfold e0. lra.
Qed.
Lemma hyd_path : path 6 (fun u i => e0 i + u * hyd i) 0 hyd.
Proof. apply path_line. Qed.
Lemma hyd_at0 : (fun i => e0 i + 0 * hyd i) = e0.
Proof. apply FunctionalExtensionality.functional_extensionality. intros i. rewrite Rmult_0_l. apply Rplus_0_r. Qed.
Lemma hyd_rel u q : rel (fun i => e0 i + u * hyd i) q = rel e0 q.
Proof.
  apply FunctionalExtensionality.functional_extensionality. intros i. unfold rel, vadd, dev_vec, hyd. simpl.
  destruct (Nat.ltb i 3); field.
Qed.
Lemma n_hyd : dot 6 (normalize_vec 6 (rel e0 (fun _ => 0))) hyd = 0.
Proof.
  destruct (w_dom (fun _ => 0) (fun _ => 0)) as [[_ Hn] _].
  assert (T := normalize_traceless (rel e0 (fun _ => 0)) Hn ltac:(unfold trace_, rel, vadd, dev_vec, tail1; simpl; field)).
  unfold trace_ in T. unfold dot, hyd. simpl. lra.
Qed.

Ltac feedE E := match type of E with ?A -> _ => let HA := fresh in
  assert (HA : A) by (split; [apply (w_dom (fun _ => 0) (fun _ => 0))|unfold e0, hyd; simpl; lra]); specialize (E HA); clear HA end.
Lemma i1_negh_refuted :
  ~ surface_exact (fun T s q => kin_domain T s q /\ s 0%nat + s 1%nat + s 2%nat <> 0) (IsoKinJ2I1 (fun _ => -1) (fun _ => 1)).
Proof.
  intros H. destruct (H 0) as [H1 _].
  assert (E := H1 _ (fun _ _ => 0) 0 hyd (fun _ => 0) hyd_path ltac:(intros i Hi; apply D_const)).
  cbv beta in E. rewrite hyd_at0 in E. feedE E. 
  rewrite dot_zero, Rplus_0_r in E. simpl in E.
  assert (E2 : is_derive (fun u => i1_f (fun _ => -1) (fun _ => 1) (fun i => e0 i + u * hyd i) (fun _ => 0) 0) 0 3).
  { unfold i1_f.
    apply D_loc with (fun u => norm2 6 (rel e0 (fun _ => 0)) + sqrt (2/3) * 0 + (1 + 3 * u)).
    - exists (mkposreal (1/6) ltac:(lra)). intros u Hu. change (Rabs (u + - 0) < 1/6) in Hu.
      apply Rabs_def2 in Hu. rewrite hyd_rel. f_equal. unfold e0, hyd. simpl.
      replace (1 + u * 1 + (0 + u * 1) + (0 + u * 1)) with (1 + 3 * u) by ring.
      unfold copysign. destruct (Rlt_dec (1 + 3 * u) 0); [lra|]. rewrite (Rabs_pos_eq (1 + 3*u)) by lra.
      rewrite cpow_pos by lra. rewrite Rpower_1 by lra. rewrite Rabs_left; lra.
    - eapply D_eq. dall. cbv beta. ring. }
  assert (U := eq_trans (eq_sym (is_derive_unique _ _ _ E2)) (is_derive_unique _ _ _ E)).
  revert U. unfold i1_ds. 
  replace (dot 6 (vadd (normalize_vec 6 (rel e0 (fun _ => 0))) (i1_dsh (fun _ => -1) (fun _ => 1) e0 0)) hyd)
    with (dot 6 (normalize_vec 6 (rel e0 (fun _ => 0))) hyd + dot 6 (i1_dsh (fun _ => -1) (fun _ => 1) e0 0) hyd) by (unfold dot, vadd; simpl; ring).
  rewrite n_hyd. unfold dot, i1_dsh, hyd, e0. simpl.
  replace (1 + 0 + 0) with 1 by ring. rewrite Rabs_R1, cpow_pos by lra. replace (1 - 1) with 0 by ring. rewrite Rpower_O by lra. lra.
Qed.

Lemma i1_smalll_refuted :
  ~ surface_exact (fun T s q => kin_domain T s q /\ s 0%nat + s 1%nat + s 2%nat <> 0) (IsoKinJ2I1 (fun _ => 1) (fun _ => 1/2)).
Proof.
  intros H. destruct (H 0) as [_ [H2 _]].
  assert (E := H2 _ (fun _ _ => 0) 0 hyd (fun _ => 0) hyd_path ltac:(intros i Hi; apply D_const)).
  cbv beta in E. rewrite hyd_at0 in E. feedE E. specialize (E 0%nat ltac:(lia)). 
  cbv beta in E. simpl ys_ds in E. unfold i1_ds, vadd at 1 in E.
  assert (E2 : is_derive (fun u => normalize_vec 6 (rel (fun i => e0 i + u * hyd i) (fun _ => 0)) 0%nat + i1_dsh (fun _ => 1) (fun _ => 1/2) (fun i => e0 i + u * hyd i) 0 0%nat) 0 (-3/4)).
  { apply D_loc with (fun u => normalize_vec 6 (rel e0 (fun _ => 0)) 0%nat + 1 * (1/2) * cpow (1 + 3 * u) (1/2 - 1)).
    - exists (mkposreal (1/6) ltac:(lra)). intros u Hu. change (Rabs (u + - 0) < 1/6) in Hu.
      apply Rabs_def2 in Hu. rewrite hyd_rel. f_equal. unfold i1_dsh, e0, hyd. simpl.
      replace (1 + u * 1 + (0 + u * 1) + (0 + u * 1)) with (1 + 3 * u) by ring.
      rewrite (Rabs_pos_eq (1 + 3*u)) by lra. reflexivity.
    - eapply D_eq. dall. cbv beta. lra. cbv beta.
      rewrite !cpow_pos by lra. replace (1 + 3 * 0) with 1 by ring. unfold Rpower. rewrite ln_1, !Rmult_0_r, exp_0. lra. }
  assert (U := eq_trans (eq_sym (is_derive_unique _ _ _ E2)) (is_derive_unique _ _ _ E)).
  destruct (w_dom (fun _ => 0) (fun _ => 0)) as [[_ Hn] _].
  unfold vadd in U. simpl ys_dss in U. simpl ys_dsq in U. simpl ys_n in U.
  assert (Z : mv 7 (i1_dsq e0 (fun _ => 0) 0) (fun _ => 0) 0%nat = 0) by apply (dot_zero 7).
  rewrite Z in U.
  assert (N := n_hyd). unfold dot, hyd in N. simpl in N.
  unfold mv, i1_dss in U. simpl in U. unfold delta, iv, jv, i1_iv2, hyd in U. simpl in U.
  set (n := normalize_vec 6 (rel e0 (fun _ => 0))) in *. set (nv := norm2 6 (rel e0 (fun _ => 0))) in *.
  pose proof eps_pos as He. change (eps < nv) in Hn. unfold e0 in U.
  replace (1 + 0 + 0) with 1 in U by ring. rewrite Rabs_R1 in U. 
  set (cp := cpow 1 (1/2 - 2)) in *. assert (Ec : cp = 1).
  { unfold cp. rewrite cpow_pos by lra. unfold Rpower. rewrite ln_1, Rmult_0_r, exp_0. reflexivity. }
  rewrite Ec in U. unfold copysign in U. destruct (Rlt_dec 1 0); [lra|]. rewrite Rabs_left in U by lra.
  apply (f_equal (fun x => x * nv)) in U. 
  assert (HU : -3/4 * nv = (1 - 1/3 - n 0%nat * n 0%nat) + (0 - 1/3 - n 0%nat * n 1%nat) + (0 - 1/3 - n 0%nat * n 2%nat) + 3/4 * nv).
  { rewrite U. field. lra. }
  replace (n 2%nat) with (- n 0%nat - n 1%nat) in HU by lra. nra.
Qed.

(** ** pressure *)
Lemma sgnpow_mono h l x y : 0 < h -> 0 < l -> x < y -> copysign (h * cpow (Rabs x) l) x < copysign (h * cpow (Rabs y) l) y.
Proof.
  intros Hh Hl Hxy.
  assert (P : forall z, 0 < z -> 0 < Rpower z l) by (intros; apply exp_pos).
  assert (M : forall a b, 0 < a -> a < b -> Rpower a l < Rpower b l).
  { intros a b Ha Hab. apply exp_increasing. apply Rmult_lt_compat_l; [assumption|]. apply ln_increasing; assumption. }
  assert (V : forall z, copysign (h * cpow (Rabs z) l) z = if Rlt_dec z 0 then - (h * Rpower (- z) l) else if Rlt_dec 0 z then h * Rpower z l else 0).
  { intros z. unfold copysign. destruct (Rlt_dec z 0).
    - rewrite (Rabs_left z), cpow_pos, Rabs_pos_eq by (first [lra | apply Rmult_le_pos; [lra|apply Rlt_le, exp_pos]]). reflexivity.
    - rewrite (Rabs_pos_eq z) by lra. destruct (Rlt_dec 0 z).
      + rewrite cpow_pos, Rabs_pos_eq by (first [lra | apply Rmult_le_pos; [lra|apply Rlt_le, exp_pos]]). reflexivity.
      + replace z with 0 by lra. unfold cpow. destruct (Rlt_dec 0 0); [lra|]. destruct (Req_EM_T l 0); [lra|]. rewrite Rmult_0_r. apply Rabs_R0. }
  rewrite !V. destruct (Rlt_dec x 0), (Rlt_dec y 0), (Rlt_dec 0 x), (Rlt_dec 0 y); try lra.
  - assert (A := M (- y) (- x) ltac:(lra) ltac:(lra)). nra.
  - assert (A := P (- x) ltac:(lra)). assert (B := P y ltac:(lra)). nra.
  - assert (A := P (- x) ltac:(lra)). nra.
  - assert (A := M x y ltac:(lra) ltac:(lra)). nra.
  - assert (B := P y ltac:(lra)). nra.
Qed.

Lemma i1_monotone h l s q T p : 0 < h T -> 0 < l T -> 0 < p ->
  i1_f h l s q T < i1_f h l (add_pressure p s) q T.
Proof.
  intros Hh Hl Hp. unfold i1_f. rewrite rel_add_pressure. apply Rplus_lt_compat_l.
  apply sgnpow_mono; try assumption. unfold add_pressure. simpl. lra.
Qed.

Lemma sqrt_23 x : sqrt (2 / 3 * (x * x)) = sqrt (2 / 3) * Rabs x.
Proof. rewrite sqrt_mult by nra. f_equal. apply sqrt_Rsqr_abs. Qed.
Lemma j2_uniaxial x q0 T : ys_f IsoJ2 (fun i => match i with O => x | _ => 0 end) (fun _ => q0) T = sqrt (2 / 3) * (Rabs x + q0).
Proof.
  simpl. unfold j2_f, norm2.
  match goal with |- context [dot 6 ?a ?a] => replace (dot 6 a a) with (2 / 3 * (x * x)) end.
  - rewrite sqrt_23. simpl. ring.
  - unfold dot, rel, vadd, dev_vec, tail1, expand_hist. simpl. field.
Qed.
