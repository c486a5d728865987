From Verif Require Import Base.
From Verif Require Import Diff.
From Verif Require Import NemlMathModel NemlMathSpec NemlMathProofs SurfModel SurfSpec SurfProofs HardModel HardProofs PlastModel PlastSpec PlastProofs RiProofs ViscoModel ViscoSpec ViscoProofs TensorModel TensorSpec TensorProofs WalkerModel WalkerSpec.

(** ** Tensors *)
Lemma wsn d : sym_norm d = norm2 6 d.
Proof.
  destruct (sym_norm_value d) as (Hp & _ & Hv). unfold norm2. rewrite <- (sqrt_square (sym_norm d) Hp). rewrite Hv. reflexivity.
Qed.
Lemma wid_dev s k : (k < 6)%nat -> mv 6 id_dev s k = sym_dev s k.
Proof. intros Hk. unfold mv, id_dev, delta, sym_dev, sym_trace. cases6 k Hk; cbn; field. Qed.
Lemma wid_sym i j : id_dev i j = id_dev j i.
Proof. unfold id_dev. rewrite delta_sym, Bool.andb_comm. reflexivity. Qed.
Lemma wpath_dev (s : R -> vec) t v : path 6 s t v -> path 6 (fun u => sym_dev (s u)) t (sym_dev v).
Proof.
  intros H k Hk. unfold sym_dev, sym_trace.
  assert (H0 := H 0%nat ltac:(lia)). assert (H1 := H 1%nat ltac:(lia)). assert (H2 := H 2%nat ltac:(lia)). assert (H3 := H k Hk).
  eapply D_eq; [apply D_minus; [exact H3|apply D_mult; [apply (D_div (fun u => s u 0%nat + s u 1%nat + s u 2%nat) (fun _ => 3)); [dall|apply D_const|lra]|apply D_const]]|cbv beta; field].
Qed.
Lemma wdev_orth d v : traceless d -> dot 6 d (sym_dev v) = dot 6 d v.
Proof. unfold traceless, tr2, t2, usym, dot, sym_dev, sym_trace. cbn. intros H. replace (d 2%nat) with (- d 0%nat - d 1%nat) by lra. field. Qed.
Lemma wdev_trace s : traceless (sym_dev s).
Proof. unfold traceless, tr2, t2, usym, sym_dev, sym_trace. cbn. field. Qed.
Lemma wtr d : tr2 (usym d) = d 0%nat + d 1%nat + d 2%nat.
Proof. unfold tr2, t2, usym. cbn. ring. Qed.
Lemma wdev_id d k : traceless d -> sym_dev d k = d k.
Proof. unfold traceless. rewrite wtr. intros H. unfold sym_dev, sym_trace. rewrite H. field. Qed.
Lemma s32 : 0 < sqrt (3 / 2) /\ sqrt (3 / 2) * sqrt (3 / 2) = 3 / 2.
Proof. split; [apply sqrt_lt_R0; lra|apply sqrt_sqrt; lra]. Qed.
Lemma div_zero_norm d i : (i < 6)%nat -> norm2 6 d = 0 -> d i = 0.
Proof.
  intros Hi H. apply (dot_zero_inv 6 d); [|exact Hi]. rewrite <- norm2_sqr, H. ring.
Qed.

(** unit direction and its derivative *)
Lemma D_dir (d : R -> vec) t v i : (i < 6)%nat -> path 6 d t v -> norm2 6 (d t) <> 0 ->
  is_derive (fun u => d u i / norm2 6 (d u)) t
    ((v i - d t i / norm2 6 (d t) * (dot 6 (d t) v / norm2 6 (d t))) / norm2 6 (d t)).
Proof.
  intros Hi H Hn. assert (Hp : 0 < norm2 6 (d t)) by (generalize (norm2_nonneg 6 (d t)); lra).
  eapply D_eq; [apply D_div; [apply H, Hi|apply (D_norm2 6 d t v H Hp)|exact Hn]|].
  cbv beta. field. exact Hn.
Qed.
(** matrix of that derivative, with the factor sqrt(3/2) *)
Definition dirm (d : vec) : mat := fun i j =>
  sqrt (3 / 2) / sym_norm d * (delta i j - d i / sym_norm d * (d j / sym_norm d)).
Lemma dirm_mv d v i : (i < 6)%nat -> sym_norm d <> 0 ->
  mv 6 (dirm d) v i = sqrt (3 / 2) / sym_norm d * (v i - d i / sym_norm d * (dot 6 d v / sym_norm d)).
Proof.
  intros Hi Hn. unfold mv, dirm.
  rewrite (rsum_ext 6 _ (fun j => sqrt (3 / 2) / sym_norm d * (delta i j * v j) - (sqrt (3 / 2) / sym_norm d * d i / sym_norm d / sym_norm d) * (d j * v j))).
  - rewrite rsum_minus, !rsum_scal, rsum_delta by exact Hi. unfold dot. field. exact Hn.
  - intros j Hj. field. exact Hn.
Qed.
Lemma dirm_sym d i j : dirm d i j = dirm d j i.
Proof. unfold dirm. rewrite delta_sym. ring. Qed.
Lemma dirm_dev d i j : (i < 6)%nat -> (j < 6)%nat -> traceless d ->
  mm 6 (dirm d) id_dev i j = sqrt (3 / 2) / sym_norm d * (id_dev i j - d i / sym_norm d * (d j / sym_norm d)).
Proof.
  intros Hi Hj Ht. unfold mm, dirm.
  rewrite (rsum_ext 6 _ (fun k => sqrt (3 / 2) / sym_norm d * (delta i k * id_dev k j)
     - (sqrt (3 / 2) / sym_norm d * (d i / sym_norm d) * / sym_norm d) * (id_dev j k * d k))).
  - rewrite rsum_minus, !rsum_scal, rsum_delta by exact Hi.
    change (rsum 6 (fun k => id_dev j k * d k)) with (mv 6 id_dev d j). rewrite (wid_dev d j Hj), (wdev_id d j Ht). unfold Rdiv. ring.
  - intros k Hk. rewrite (wid_sym k j). unfold Rdiv. ring.
Qed.
Lemma dirm_dev_sym d i j : (i < 6)%nat -> (j < 6)%nat -> traceless d -> mm 6 (dirm d) id_dev i j = mm 6 (dirm d) id_dev j i.
Proof. intros Hi Hj Ht. rewrite !dirm_dev by assumption. rewrite wid_sym. ring. Qed.
Lemma dirm_dev_mv d v i : (i < 6)%nat -> mv 6 (mm 6 (dirm d) id_dev) v i = mv 6 (dirm d) (sym_dev v) i.
Proof. intros Hi. rewrite mv_mm. apply mv_vec_ext. intros j Hj. apply wid_dev, Hj. Qed.
(** the flow direction sqrt(3/2) d/|d| *)
Definition dirv (d : vec) : vec := fun i => sqrt (3 / 2) * (d i / norm2 6 d).
Lemma dirv_val d i : (i < 6)%nat -> (if Req_EM_T (sym_norm d) 0 then 0 else 3 / 2 * d i / (sqrt (3 / 2) * sym_norm d)) = dirv d i.
Proof.
  intros Hi. unfold dirv. rewrite wsn. destruct s32 as [Hp Hs]. destruct (Req_EM_T (norm2 6 d) 0) as [E|E].
  - rewrite (div_zero_norm d i Hi E). unfold Rdiv. ring.
  - set (q := sqrt (3 / 2)) in *. rewrite <- Hs. field. split; lra.
Qed.
Lemma D_dirv (d : R -> vec) t v : path 6 d t v -> sym_norm (d t) <> 0 -> path 6 (fun u => dirv (d u)) t (mv 6 (dirm (d t)) v).
Proof.
  intros H Hn i Hi. rewrite dirm_mv by assumption. rewrite wsn in *. unfold dirv.
  eapply D_eq; [apply D_mult; [apply D_const|apply (D_dir d t v i Hi H Hn)]|]. cbv beta. field. exact Hn.
Qed.
Lemma dirv_norm d : norm2 6 d <> 0 -> dot 6 (dirv d) (dirv d) = 3 / 2.
Proof.
  intros H. unfold dirv, dot. rewrite (rsum_ext 6 _ (fun i => (sqrt (3 / 2) * sqrt (3 / 2)) / (norm2 6 d * norm2 6 d) * (d i * d i))).
  - rewrite rsum_scal. change (rsum 6 (fun i => d i * d i)) with (dot 6 d d). destruct s32 as [_ ->]. rewrite <- norm2_sqr. field. exact H.
  - intros i _. field. exact H.
Qed.
Lemma traceless_dirv d : traceless d -> traceless (dirv d).
Proof. unfold traceless. rewrite !wtr. unfold dirv. intros H. unfold Rdiv. rewrite <- !Rmult_assoc, <- !Rmult_plus_distr_r, <- !Rmult_plus_distr_l, H. ring. Qed.

(** ** Flat histories *)
Lemma whist_X xa xR xD X i k : (k < 6)%nat -> whist xa xR xD X (3 + 6 * i + k)%nat = X i k.
Proof.
  intros Hk. unfold whist. replace (3 + 6 * i + k)%nat with (S (S (S (6 * i + k)))) by lia.
  replace (S (S (S (6 * i + k))) - 3)%nat with (i * 6 + k)%nat by lia. rewrite divb, modb by exact Hk. reflexivity.
Qed.
Lemma wX_whist xa xR xD X i k : (k < 6)%nat -> wX (whist xa xR xD X) i k = X i k.
Proof. apply whist_X. Qed.
Lemma rsum_hist m f : rsum (3 + 6 * m) f = f 0%nat + f 1%nat + f 2%nat + rsum m (fun i => rsum 6 (fun k => f (3 + 6 * i + k)%nat)).
Proof.
  rewrite rsum_app. replace (6 * m)%nat with (m * 6)%nat by lia. rewrite rsum_blocks6. cbn [rsum]. rewrite Rplus_0_l. f_equal.
  apply rsum_ext. intros i _. f_equal; repeat (f_equal; try lia).
Qed.
Lemma dot_whist m xa xR xD X v :
  dot (3 + 6 * m) (whist xa xR xD X) v = xa * v 0%nat + xR * v 1%nat + xD * v 2%nat + rsum m (fun i => dot 6 (X i) (wX v i)).
Proof.
  unfold dot at 1. rewrite rsum_hist. cbn [whist]. f_equal. apply rsum_ext. intros i _. apply rsum_ext. intros k Hk.
  rewrite whist_X by exact Hk. reflexivity.
Qed.
Lemma hist_index m r : (r < 3 + 6 * m)%nat -> r = 0%nat \/ r = 1%nat \/ r = 2%nat \/ exists i k, (i < m)%nat /\ (k < 6)%nat /\ r = (3 + 6 * i + k)%nat.
Proof.
  intros H. destruct r as [|[|[|r]]]; auto. do 3 right. exists (r / 6)%nat, (r mod 6)%nat.
  split; [apply Nat.div_lt_upper_bound; lia|]. split; [apply Nat.mod_upper_bound; lia|]. generalize (Nat.div_mod r 6). lia.
Qed.

(** ** The Walker-Krempl switch *)
Lemma wk_kappa_deriv lam eps0 T (e : R -> vec) t ve : path 6 e t ve -> lam T = 0 \/ norm2 6 (dev_vec (e t)) <> 0 ->
  is_derive (fun u => wk_kappa lam eps0 (e u) T) t (dot 6 (wk_dkappa lam eps0 (e t) T) ve).
Proof.
  intros He [Z|Hn].
  - apply (D_ext (fun _ => 1)). { intros u. unfold wk_kappa. rewrite Z. unfold Rdiv. ring. }
    eapply D_eq; [apply D_const|]. unfold dot, wk_dkappa. rewrite Z.
    rewrite (rsum_ext 6 _ (fun _ => 0)), rsum_0; [reflexivity|]. intros i Hi. destruct (Req_EM_T _ 0); unfold Rdiv; ring.
  - assert (Hp : 0 < norm2 6 (dev_vec (e t))) by (generalize (norm2_nonneg 6 (dev_vec (e t))); lra).
    assert (Dn := D_norm2 6 (fun u => dev_vec (e u)) t (dev_vec ve) (path_dev e t ve He) Hp). cbv beta in Dn.
    rewrite dot_traceless_dev in Dn by (unfold trace_, dev_vec; cbn; field).
    unfold wk_kappa. eapply D_eq.
    { apply D_plus; [apply D_const|]. unfold Rdiv. apply D_mult; [apply D_mult; [apply D_const|apply D_mult; [apply D_const|exact Dn]]|apply D_const]. }
    cbv beta. unfold wk_dkappa, dot.
    destruct (Req_EM_T (norm2 6 (dev_vec (e t))) 0) as [E|_]; [contradiction|].
    rewrite (rsum_ext 6 (fun i => dev_vec (e t) i * (lam T / eps0 * sqrt (2 / 3) / norm2 6 (dev_vec (e t))) * ve i)
      (fun i => (lam T / eps0 * sqrt (2 / 3) / norm2 6 (dev_vec (e t))) * (dev_vec (e t) i * ve i))) by (intros; ring).
    rewrite rsum_scal. unfold Rdiv. ring.
Qed.
Lemma mv_scale n (A : mat) k v i : mv n (fun p q => A p q * k) v i = k * mv n A v i.
Proof. unfold mv. rewrite <- rsum_scal. apply rsum_ext. intros. ring. Qed.
Lemma mv_outer2 n (p q v : vec) k i : mv n (fun i j => p i * (q j * k)) v i = p i * (k * dot n q v).
Proof. unfold mv, dot. rewrite <- rsum_scal, <- rsum_scal. apply rsum_ext. intros. ring. Qed.
Lemma mv_plus n (A B : mat) v i : mv n (fun p q => A p q + B p q) v i = mv n A v i + mv n B v i.
Proof. unfold mv. rewrite <- rsum_plus. apply rsum_ext. intros. ring. Qed.
Lemma mv_minus n (A B : mat) v i : mv n (fun p q => A p q - B p q) v i = mv n A v i - mv n B v i.
Proof. unfold mv. rewrite <- rsum_minus. apply rsum_ext. intros. ring. Qed.
Lemma mv_delta n v i : (i < n)%nat -> mv n (fun p q => delta p q) v i = v i.
Proof. intros Hi. unfold mv. apply (rsum_delta n i v Hi). Qed.

Lemma wk_exact P C V lam eps0 : vflow_exact P V ->
  gflow_exact (fun T s a e => P T s a /\ (lam T = 0 \/ norm2 6 (dev_vec e) <> 0)) (WKSwitch C V lam eps0).
Proof.
  intros (Hy & Hg & Ht & HT & Hh & Hht & HhT) T Td s a e t vs va ve Hs Ha He [HP Hk].
  cbn [gf_n WKSwitch gf_s gf_ss gf_sa gf_se gf_a gf_as gf_aa gf_ae] in *.
  pose proof (Hy T s a t vs va Hs Ha HP) as Dy.
  pose proof (wk_kappa_deriv lam eps0 T e t ve He Hk) as Dk.
  set (y := vf_y V (s t) (a t) T) in *. set (k := wk_kappa lam eps0 (e t) T) in *. set (dk := wk_dkappa lam eps0 (e t) T) in *.
  set (dys := vf_ys V (s t) (a t) T) in *. set (dya := vf_ya V (s t) (a t) T) in *.
  split.
  - intros i Hi.
    pose (W := fun i => ve i - (((dot 6 dys vs + dot (vf_n V) dya va) * k + y * dot 6 dk ve) * pv (vf_g V) (s t) (a t) T i
       + y * k * (mv 6 (pds (vf_g V) (s t) (a t) T) vs i + mv (vf_n V) (pda (vf_g V) (s t) (a t) T) va i))).
    eapply D_eq. apply (D_mvn 6 (C T) _ t W).
    + intros j Hj. pose proof (He j Hj) as E1. pose proof (Hg T s a t vs va Hs Ha HP j Hj) as E2.
      cbv beta in *. eapply D_eq.
      { apply D_minus; [exact E1|apply D_mult; [apply D_mult; [exact Dy|exact Dk]|exact E2]]. }
      unfold W, vadd. fold y k. ring.
    + unfold vadd. rewrite !mv_mm.
      match goal with |- _ = mv 6 _ ?x i + (mv 6 _ ?y i + mv 6 _ ?z i) => set (A1 := x); set (A2 := y); set (A3 := z) end.
      transitivity (mv 6 (C T) (vadd (vadd A1 A2) A3) i).
      * apply mv_vec_ext. intros j Hj. unfold W, vadd, A1, A2, A3. clear W A1 A2 A3.
        rewrite !mv_minus, !mv_scale, !mv_outer2, mv_delta by exact Hj.
        rewrite (mv_mat_ext 6 (fun i j => pv (vf_g V) (s t) (a t) T i * y * dk j) (fun i j => pv (vf_g V) (s t) (a t) T i * (dk j * y))) by (intros; ring).
        rewrite mv_outer2. ring.
      * rewrite !mv_vadd. ring.
  - intros i Hi.
    pose proof (Hh T s a t vs va Hs Ha HP i Hi) as E2.
    pose proof (HhT T s a t vs va Hs Ha HP i Hi) as E3. pose proof (Hht T s a t vs va Hs Ha HP i Hi) as E4.
    cbv beta in *. eapply D_eq.
    { apply D_plus; [apply D_plus; [apply D_mult; [exact E2|apply D_mult; [exact Dy|exact Dk]]|apply D_mult; [exact E3|apply D_const]]|apply D_mult; [exact E4|exact Dk]]. }
    unfold vadd. fold y k. rewrite !mv_plus, !mv_scale, !mv_outer2.
    rewrite (mv_mat_ext 6 (fun i j => pv (vf_h V) (s t) (a t) T i * y * dk j) (fun i j => pv (vf_h V) (s t) (a t) T i * (dk j * y))) by (intros; ring).
    rewrite (mv_mat_ext 6 (fun i j => pv (vf_ht V) (s t) (a t) T i * dk j) (fun i j => pv (vf_ht V) (s t) (a t) T i * (dk j * 1))) by (intros; ring).
    rewrite !mv_outer2. ring.
Qed.

(** ** Values of the switch *)
Lemma norm2_scale n c v : 0 <= c -> norm2 n (fun i => c * v i) = c * norm2 n v.
Proof.
  intros Hc. unfold norm2. replace (dot n (fun i => c * v i) (fun i => c * v i)) with (c * c * dot n v v).
  - rewrite sqrt_mult_alt by nra. rewrite sqrt_square by exact Hc. reflexivity.
  - unfold dot. rewrite <- rsum_scal. apply rsum_ext. intros. ring.
Qed.
Lemma norm2_vext n v w : (forall i, (i < n)%nat -> v i = w i) -> norm2 n v = norm2 n w.
Proof. intros H. unfold norm2, dot. f_equal. apply rsum_ext. intros i Hi. rewrite (H i Hi). reflexivity. Qed.
Lemma dev_scale c e i : dev_vec (fun k => c * e k) i = c * dev_vec e i.
Proof. unfold dev_vec. destruct (Nat.ltb i 3); [field|reflexivity]. Qed.
Lemma wk_kappa_scale lam eps0 e T c : 0 <= c -> lam T = 1 -> wk_kappa lam eps0 (fun k => c * e k) T = c * wk_kappa lam eps0 e T.
Proof.
  intros Hc L. unfold wk_kappa. rewrite (norm2_vext 6 _ (fun i => c * dev_vec e i)) by (intros; apply dev_scale).
  rewrite norm2_scale by exact Hc. rewrite L. unfold Rdiv. ring.
Qed.
Lemma wk_rate_independent C V lam eps0 s a e T c : 0 <= c -> lam T = 1 ->
  (forall i, (i < 6)%nat -> gf_s (WKSwitch C V lam eps0) s a (fun k => c * e k) T 0 i = c * gf_s (WKSwitch C V lam eps0) s a e T 0 i) /\
  (forall i, gf_a (WKSwitch C V lam eps0) s a (fun k => c * e k) T 0 i = c * gf_a (WKSwitch C V lam eps0) s a e T 0 i).
Proof.
  intros Hc L. cbn [gf_s gf_a WKSwitch]. rewrite wk_kappa_scale by assumption. split.
  - intros i Hi. unfold mv. rewrite <- rsum_scal. apply rsum_ext. intros j Hj. ring.
  - intros i. ring.
Qed.
Lemma wk_lam0 C V lam eps0 limit s a e T Td : lam T = 0 ->
  (forall i, (i < 6)%nat -> pv (vf_gt V) s a T i = 0 /\ pv (vf_gT V) s a T i = 0) ->
  (forall i, (i < 6)%nat -> gf_s (WKSwitch C V lam eps0) s a e T Td i = gf_s (TVP C V limit) s a e T Td i) /\
  (forall i, (i < vf_n V)%nat -> gf_a (WKSwitch C V lam eps0) s a e T Td i = gf_a (TVP C V limit) s a e T Td i) /\
  gf_work (WKSwitch C V lam eps0) s a e T Td = gf_work (TVP C V limit) s a e T Td.
Proof.
  intros L Z. assert (K : wk_kappa lam eps0 e T = 1) by (unfold wk_kappa; rewrite L; unfold Rdiv; ring).
  cbn [gf_s gf_a gf_work WKSwitch TVP]. rewrite K. repeat split.
  - intros i Hi. apply mv_vec_ext. intros j Hj. destruct (Z j Hj) as [-> ->]. ring.
  - intros i Hi. ring.
  - unfold dot. apply rsum_ext. intros j Hj. destruct (Z j Hj) as [-> ->]. ring.
Qed.
Lemma wk_kappa_nonneg lam eps0 e T : 0 < eps0 -> 0 <= lam T <= 1 -> 0 <= wk_kappa lam eps0 e T.
Proof.
  intros H0 HL. unfold wk_kappa. assert (0 <= lam T * (sqrt (2 / 3) * norm2 6 (dev_vec e)) / eps0); [|lra].
  apply Rmult_le_pos; [|left; apply Rinv_0_lt_compat, H0]. apply Rmult_le_pos; [lra|]. apply Rmult_le_pos; [apply sqrt_pos|apply norm2_nonneg].
Qed.
Lemma wk_kappa_ref lam eps0 e T : eps0 <> 0 -> sqrt (2 / 3) * norm2 6 (dev_vec e) = eps0 -> wk_kappa lam eps0 e T = 1.
Proof. intros H0 E. unfold wk_kappa. rewrite E. field. exact H0. Qed.
