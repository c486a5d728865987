From Coq Require Import String.
From Verif Require Import Base.
From Verif Require Import Diff.
From Verif Require Import NemlMathModel NemlMathSpec NemlMathProofs SurfModel SurfSpec SurfProofs HardModel HardProofs PlastModel PlastSpec PlastProofs RiProofs ViscoModel ViscoSpec ViscoProofs TensorModel TensorSpec TensorProofs HistModel HistSpec HistProofs WalkerModel WalkerSpec WalkerProofs WalkerDeriv WalkerVars.

(** ** The complete Walker model *)
Lemma full_walker_exact eps0 phi0 phi1 scaling n k m r0 Rinf R0 r1 r2 d0 d1 d2 Dxi D0 nX ks :
  (forall i, k_soft (ks i) = WalkerSoftening phi0 phi1) ->
  let w := full_walker eps0 phi0 phi1 scaling n k m r0 Rinf R0 r1 r2 d0 d1 d2 Dxi D0 nX ks in
  let Pa := fun a (T : R) => 0 < a /\ a <> ainc in
  vflow_exact (fun T s a => w_domain w Pa T s a /\
     w_var_domain w (fun x => st_h x <> R0 (st_T x)) (fun x => D0 < st_h x /\ Dxi (st_T x) <> 0 /\ Pa (st_a x) (st_T x))
       (fun i x => wkin_dom (set_scale (ks i) scaling) Pa x) T s a) (WalkerFlow w).
Proof.
  intros HK w Pa. apply walker_exact.
  - apply wsoft_exact.
  - apply wiso_exact.
  - apply wiso_exact.
  - apply (wdrag_exact d0 d1 d2 Dxi D0 (WalkerSoftening phi0 phi1) scaling Pa). apply wsoft_exact.
  - apply (wdrag_exact d0 d1 d2 Dxi D0 (WalkerSoftening phi0 phi1) scaling Pa). apply wsoft_exact.
  - intros x. split; reflexivity.
  - intros i _. split; [apply wkin_p_exact|]. apply wkin_t_exact. cbn [set_scale k_soft]. rewrite HK. apply wsoft_exact.
Qed.

(** ** TestFlowRule *)
Lemma tf_exact eps0 D n K : vflow_exact (tf_domain D) (TestFlow eps0 D n K).
Proof.
  unfold vflow_exact. cbn [TestFlow vf_n vf_y vf_ys vf_ya vf_g vf_gt vf_gT vf_h vf_ht vf_hT].
  split; [|split; [|split; [|split; [|split; [|split]]]]]; try apply zero_part_exact.
  - intros T s a t vs va Hs Ha (HD & Hn & Ho).
    assert (Hp : 0 < norm2 6 (sym_dev (s t))) by (rewrite wsn in Hn; generalize (norm2_nonneg 6 (sym_dev (s t))); lra).
    assert (Dn : is_derive (fun u => sym_norm (sym_dev (s u))) t (dot 6 (sym_dev (s t)) vs / sym_norm (sym_dev (s t)))).
    { apply (D_ext (fun u => norm2 6 (sym_dev (s u)))). { intros u. symmetry. apply wsn. } rewrite wsn.
      eapply D_eq; [apply (D_norm2 6 (fun u => sym_dev (s u)) t _ (wpath_dev s t vs Hs) Hp)|]. cbv beta. rewrite wdev_orth by apply wdev_trace. reflexivity. }
    assert (A1 := Ha 1%nat ltac:(lia)). cbv beta in A1.
    assert (Dov : is_derive (fun u => tf_over D (s u) (a u)) t ((sqrt (3 / 2) * (dot 6 (sym_dev (s t)) vs / sym_norm (sym_dev (s t))) - va 1%nat) / D)).
    { unfold tf_over. eapply D_eq; [apply (D_div (fun u => sqrt (3 / 2) * sym_norm (sym_dev (s u)) - a u 1%nat) (fun _ => D)); [apply D_minus; [apply D_mult; [apply D_const|exact Dn]|exact A1]|apply D_const|exact HD]|cbv beta; field; split; assumption]. }
    destruct (Rlt_dec 0 (tf_over D (s t) (a t))) as [L|L].
    + apply (D_loc (fun u => eps0 * cpow (tf_over D (s u) (a u)) n)).
      { generalize (loc_gt _ t _ 0 Dov L). apply filter_imp. intros u U. destruct (Rlt_dec 0 _); [reflexivity|contradiction]. }
      eapply D_eq; [apply D_mult; [apply D_const|apply (D_cpow _ n t _ Dov L)]|]. cbv beta.
      rewrite (dot_ext_l 6 (fun i => eps0 * n * cpow (tf_over D (s t) (a t)) (n - 1) * sqrt (3 / 2) * sym_dev (s t) i / sym_norm (sym_dev (s t)) / D)
        (fun i => (eps0 * n * cpow (tf_over D (s t) (a t)) (n - 1) * sqrt (3 / 2) / sym_norm (sym_dev (s t)) / D) * sym_dev (s t) i)) by (intros; unfold Rdiv; ring).
      rewrite dot_scal. unfold dot at 3. cbn [rsum]. field. split; assumption.
    + apply (D_loc (fun _ => 0)).
      { assert (L' : tf_over D (s t) (a t) < 0) by lra. generalize (loc_lt _ t _ 0 Dov L'). apply filter_imp. intros u U. destruct (Rlt_dec 0 _); [lra|reflexivity]. }
      eapply D_eq; [apply D_const|]. rewrite !dot_0l. ring.
  - intros T s a t vs va Hs Ha (HD & Hn & Ho) i Hi. cbn [pv pds pda].
    assert (Hp : 0 < sym_norm (sym_dev (s t))) by (rewrite wsn in *; generalize (norm2_nonneg 6 (sym_dev (s t))); lra).
    apply (D_ext (fun u => dirv (sym_dev (s u)) i)).
    { intros u. unfold dirv. rewrite <- wsn. destruct (Rlt_dec 0 (sym_norm (sym_dev (s u)))) as [|N]; [unfold Rdiv; ring|].
      rewrite (div_zero_norm (sym_dev (s u)) i Hi); [unfold Rdiv; ring|]. rewrite <- wsn. rewrite wsn in *. generalize (norm2_nonneg 6 (sym_dev (s u))). lra. }
    eapply D_eq; [apply (D_dirv (fun u => sym_dev (s u)) t (sym_dev vs) (wpath_dev s t vs Hs) Hn i Hi)|].
    unfold vadd. rewrite mv_0l, Rplus_0_r. rewrite <- dirm_dev_mv by exact Hi. apply mv_mat_ext. intros j Hj.
    rewrite dirm_dev by (assumption || apply wdev_trace). destruct (Rlt_dec 0 _); [reflexivity|contradiction].
  - intros T s a t vs va Hs Ha _ i Hi. cbn [pv pds pda]. eapply D_eq; [apply D_const|]. unfold vadd. rewrite !mv_0l. ring.
Qed.

(** ** Where the reported derivatives are wrong *)
(** at the initial drag stress: y does not depend on R there, the reported derivative is not zero *)
Lemma w_initial_drag w s a T : w_m w T <> 0 -> a 2%nat = dv_0 (w_D w) T -> a 2%nat <> 0 -> w_pre w a T <> 0 -> w_n w T <> 0 -> 0 < w_over w s a T ->
  is_derive (fun u => w_y w s (fun i => if Nat.eqb i 1 then a i + u else a i) T) 0 0 /\ w_ya w s a T 1%nat <> 0.
Proof.
  intros Hm HD H0 Hp Hn Ho. split.
  - apply (D_ext (fun _ => w_y w s a T)); [|apply D_const]. intros u. set (b := fun i => if Nat.eqb i 1 then a i + u else a i).
    assert (Ed : w_d w s b = w_d w s a) by reflexivity.
    assert (Ep : w_pre w b T = w_pre w a T) by reflexivity.
    assert (Z : forall c, c 2%nat = dv_0 (w_D w) T -> w_Y w c T = 0).
    { intros c Hc. unfold w_Y. cbv zeta. rewrite Hc. replace ((dv_0 (w_D w) T - dv_0 (w_D w) T) / dv_xi (w_D w) T) with 0 by (unfold Rdiv; ring).
      destruct (Rlt_dec 0 0); [lra|]. unfold cpow. destruct (Rlt_dec 0 0); [lra|]. destruct (Req_EM_T (w_m w T) 0); [contradiction|]. ring. }
    assert (Eo : w_over w s b T = w_over w s a T).
    { unfold w_over. rewrite Ed, (Z a HD), (Z b HD). reflexivity. }
    unfold w_y, w_flow. rewrite Ep, Eo. reflexivity.
  - unfold w_ya. cbv zeta. cbn [whist]. unfold w_Dr. cbv zeta. destruct (Rlt_dec 0 _) as [L|_]; [lra|].
    unfold w_dflow. destruct (Rle_dec _ 0) as [|_]; [lra|]. rewrite (Rabs_pos_eq (w_over w s a T)) by lra.
    unfold Rdiv. repeat apply Rmult_integral_contrapositive_currified; try lra; try assumption.
    + rewrite cpow_pos by exact Ho. apply Rgt_not_eq, exp_pos.
    + rewrite cpow_pos by lra. apply Rgt_not_eq, exp_pos.
    + apply Rinv_neq_0_compat, H0.
Qed.
(** the dynamic recovery function jumps at zero plastic strain unless l = l1 + 1 *)
Lemma k_L_jump p x : continuous (fun a => k_L p (mkSt (st_h x) a (st_ad x) (st_D x) (st_s x) (st_g x) (st_T x))) 0 ->
  k_l p (st_T x) = k_l1 p (st_T x) + 1.
Proof.
  intros Hc. set (T := st_T x). set (L := fun a => k_L p (mkSt (st_h x) a (st_ad x) (st_D x) (st_s x) (st_g x) (st_T x))) in *.
  set (g := fun a => k_l p T * (k_l1 p T + (1 - k_l1 p T) * exp (- k_l0 p T * a))).
  assert (Hg : continuous g 0).
  { unfold g. eapply D_cont. apply D_mult; [apply D_const|apply D_plus; [apply D_const|apply D_mult; [apply D_const|apply D_exp; apply D_mult; [apply D_const|apply D_id]]]]. }
  assert (H1 : filterlim L (at_right 0) (locally (L 0))) by (apply filterlim_filter_le_1 with (2 := Hc); apply filter_le_within).
  assert (H2 : filterlim L (at_right 0) (locally (g 0))).
  { apply (filterlim_ext_loc g).
    - exists (mkposreal 1 Rlt_0_1). intros y _ Hy. unfold L, g, k_L. cbn. fold T. destruct (Rle_dec y 0); [lra|reflexivity].
    - apply filterlim_filter_le_1 with (2 := Hg). apply filter_le_within. }
  assert (E : L 0 = g 0) by (apply (filterlim_locally_unique (F := at_right 0) L); assumption).
  unfold L, g, k_L in E. cbn in E. fold T in E. destruct (Rle_dec 0 0) as [_|]; [|lra]. rewrite Rmult_0_r, exp_0 in E. lra.
Qed.

(** ** Names *)
Lemma add_all_rep vs : forall l h h', rep l h -> add_all vs h = HOk h' -> rep (l ++ vs) h'.
Proof.
  induction vs as [|[n t] r IH]; intros l h h' H A; cbn [add_all] in A.
  - injection A as <-. rewrite app_nil_r. exact H.
  - unfold hbind in A. destruct (hadd n t h) as [h1|] eqn:E; [|discriminate].
    destruct (rep_add l h n t h1 H E) as (_ & H1 & _). replace (l ++ (n, t) :: r)%list with ((l ++ [(n, t)]) ++ r)%list by (rewrite <- app_assoc; reflexivity).
    apply (IH _ h1); assumption.
Qed.
Lemma add_all_ok vs : forall l h, rep l h -> NoDup (map fst (l ++ vs)) -> exists h', add_all vs h = HOk h'.
Proof.
  induction vs as [|[n t] r IH]; intros l h H Hn; cbn [add_all].
  - eauto.
  - assert (F : find n l = None).
    { apply find_none_iff. intros I. rewrite map_app in Hn. cbn in Hn. apply NoDup_remove_2 in Hn. apply Hn, in_or_app. left. exact I. }
    destruct (hadd n t h) as [h1|] eqn:E.
    + cbn. destruct (rep_add l h n t h1 H E) as (_ & H1 & _). apply (IH _ h1 H1). rewrite <- app_assoc. exact Hn.
    + unfold hadd in E. rewrite (rep_contains l h n H), F in E. discriminate.
Qed.
Lemma rep_gather l h d : rep l h -> length d = length (hdata h) -> rep l (gather h d).
Proof. apply rep_data. Qed.
Lemma w_vars_names ts nX : (forall i j, ts i = ts j -> i = j) -> NoDup (map fst (w_vars ts "" nX)).
Proof.
  intros Hi. unfold w_vars. cbn [map fst]. rewrite map_map. cbn [fst].
  assert (NX : forall c s, (forall z, ("X" ++ z)%string <> String c s) -> ~ In (String c s) (map (fun i => ("" ++ "X" ++ ts i)%string) (seq 0 nX))).
  { intros c s H I. apply in_map_iff in I. destruct I as (i & E & _). apply (H (ts i)). exact E. }
  constructor. { intros [E|[E|I]]; [discriminate|discriminate|]. revert I. apply NX. discriminate. }
  constructor. { intros [E|I]; [discriminate|]. revert I. apply NX. discriminate. }
  constructor. { apply NX. discriminate. }
  apply FinFun.Injective_map_NoDup; [|apply seq_NoDup]. intros i j E. cbn in E. injection E as E. apply Hi, E.
Qed.
(** under the empty prefix the cached history places the variables as [whist] does *)
Lemma off_X ts nX : (forall i j, ts i = ts j -> i = j) -> forall b i, (i < nX)%nat ->
  off ("X" ++ ts (b + i)%nat)%string (map (fun j => (("" ++ "X" ++ ts j)%string, TSymmetric)) (seq b nX)) = Some (6 * i)%nat.
Proof.
  intros Hi. induction nX as [|m IH]; intros b i H; [lia|]. cbn [seq map off].
  destruct (String.eqb ("X" ++ ts (b + i)%nat) ("" ++ "X" ++ ts b)) eqn:E.
  - apply String.eqb_eq in E. cbn in E. injection E as E. apply Hi in E. replace i with 0%nat by lia. reflexivity.
  - assert (i <> 0%nat). { intros ->. rewrite Nat.add_0_r in E. change ("" ++ "X" ++ ts b)%string with ("X" ++ ts b)%string in E. rewrite String.eqb_refl in E. discriminate. }
    replace (b + i)%nat with (S b + (i - 1))%nat by lia. rewrite (IH (S b) (i - 1)%nat) by lia. cbn. f_equal. lia.
Qed.
Lemma w_lookup_ok ts nX h d : (forall i j, ts i = ts j -> i = j) -> w_cached ts nX = HOk h -> length d = length (hdata h) ->
  length (hdata h) = (3 + 6 * nX)%nat /\
  hlookup TScalar "alpha" (gather h d) = HOk 0%nat /\ hlookup TScalar "R" (gather h d) = HOk 1%nat /\
  hlookup TScalar "D" (gather h d) = HOk 2%nat /\
  (forall i, (i < nX)%nat -> hlookup TSymmetric ("X" ++ ts i) (gather h d) = HOk (3 + 6 * i)%nat).
Proof.
  intros Hi Hc Hl. assert (Hr := add_all_rep _ _ _ _ rep_empty Hc). cbn [app] in Hr.
  assert (Hg := rep_gather _ h d Hr Hl).
  assert (HT : forall m b, total (map (fun i => (("" ++ "X" ++ ts i)%string, TSymmetric)) (seq b m)) = (6 * m)%nat).
  { induction m as [|m IH]; intros b; [reflexivity|]. cbn [seq map total]. rewrite IH. cbn [ssize]. lia. }
  split. { rewrite (rep_size _ h Hr). unfold w_vars. cbn [total ssize]. rewrite HT. lia. }
  repeat split; try (rewrite (rep_lookup _ _ _ _ Hg); reflexivity).
  intros i Hx. rewrite (rep_lookup _ _ _ _ Hg).
  assert (Ho : off ("X" ++ ts i) (w_vars ts "" nX) = Some (3 + 6 * i)%nat).
  { unfold w_vars. cbn [off].
    replace (String.eqb ("X" ++ ts i) ("" ++ "alpha")) with false by reflexivity.
    replace (String.eqb ("X" ++ ts i) ("" ++ "R")) with false by reflexivity.
    replace (String.eqb ("X" ++ ts i) ("" ++ "D")) with false by reflexivity.
    assert (Q := off_X ts nX Hi 0 i Hx). cbn [Nat.add] in Q. rewrite Q. reflexivity. }
  assert (Hf : find ("X" ++ ts i)%string (w_vars ts "" nX) = Some TSymmetric).
  { destruct (find ("X" ++ ts i)%string (w_vars ts "" nX)) as [t|] eqn:F.
    - apply find_In in F. unfold w_vars in F. destruct F as [F|[F|[F|F]]]; try discriminate. apply in_map_iff in F. destruct F as (j & F & _). congruence.
    - apply off_find in F. congruence. }
  rewrite Hf, Ho. reflexivity.
Qed.
(** inside a superposition every lookup fails *)
Lemma w_lookup_prefixed ts nX h d j t n : w_cached ts nX = HOk h -> length d = length (hdata h) ->
  hlookup t (sup_prefix ts j ++ n) (gather h d) = HErr ENotExists.
Proof.
  intros Hc Hl. assert (Hr := add_all_rep _ _ _ _ rep_empty Hc). cbn [app] in Hr.
  rewrite (rep_lookup _ _ _ _ (rep_gather _ h d Hr Hl)).
  replace (find (sup_prefix ts j ++ n)%string (w_vars ts "" nX)) with (@None stype); [reflexivity|].
  symmetry. apply find_none_iff. unfold w_vars. cbn [map fst]. rewrite map_map. intros [E|[E|[E|I]]]; try discriminate.
  apply in_map_iff in I. destruct I as (i & E & _). discriminate.
Qed.
Lemma tf_lookup_prefixed ts h d j t n : tf_cached = HOk h -> length d = length (hdata h) ->
  hlookup t (sup_prefix ts j ++ n) (gather h d) = HErr ENotExists.
Proof.
  intros Hc Hl. assert (Hr := add_all_rep _ _ _ _ rep_empty Hc). cbn [app] in Hr.
  rewrite (rep_lookup _ _ _ _ (rep_gather _ h d Hr Hl)). reflexivity.
Qed.
Lemma w_cached_ok ts nX : (forall i j, ts i = ts j -> i = j) -> exists h, w_cached ts nX = HOk h.
Proof. intros H. apply (add_all_ok _ [] hempty rep_empty). apply w_vars_names, H. Qed.
