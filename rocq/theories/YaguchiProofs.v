From Verif Require Import Base.
From Verif Require Import Diff.
From Verif Require Import NemlMathModel NemlMathSpec NemlMathProofs InterpModel.
From Verif Require Import SurfModel SurfSpec SurfProofs HardModel HardSpec HardProofs RiModel RiSpec RiProofs.
From Verif Require Import PlastModel PlastSpec PlastProofs ViscoModel ViscoSpec ViscoProofs.

Lemma devd_eq a i : (i < 6)%nat -> dev_vec_deriv a i = dev_vec a i.
Proof. intros Hi. unfold dev_vec_deriv, dev_vec. do 6 (destruct i as [|i]; [cbn; field|]); lia. Qed.
Lemma dev_path d t v : path 6 d t v -> path 6 (fun u => dev_vec (d u)) t (dev_vec v).
Proof.
  intros H i Hi. pose proof (H 0%nat ltac:(lia)) as H0. pose proof (H 1%nat ltac:(lia)) as H1. pose proof (H 2%nat ltac:(lia)) as H2.
  pose proof (H i Hi) as HI. unfold dev_vec. destruct (Nat.ltb i 3); [|exact HI].
  eapply D_eq. apply D_minus; [exact HI|]. apply D_div; [apply D_plus; [apply D_plus; [exact H0|exact H1]|exact H2]|apply D_const|lra].
  cbv beta. field.
Qed.
Lemma dot_dev_dev d v : dot 6 (dev_vec d) (dev_vec v) = dot 6 (dev_vec d) v.
Proof. symmetry. apply dev_orth. Qed.
Lemma D_yJ2 d t v : path 6 d t v -> 0 < yJ2 (d t) ->
  is_derive (fun u => yJ2 (d u)) t (3 / 2 / yJ2 (d t) * dot 6 (dev_vec (d t)) v).
Proof.
  intros H HJ. unfold yJ2 in *. 
  assert (Hp : 0 < 3 / 2 * dot 6 (dev_vec (d t)) (dev_vec (d t))).
  { destruct (Rle_lt_dec (3 / 2 * dot 6 (dev_vec (d t)) (dev_vec (d t))) 0) as [L|L]; [|exact L].
    rewrite sqrt_neg_0 in HJ by exact L. lra. }
  eapply D_eq. eapply D_sqrt. apply D_mult; [apply D_const|]. apply (D_dot 6 _ _ t _ _ (dev_path d t v H) (dev_path d t v H)).
  exact Hp.
  cbv beta. rewrite (dot_comm 6 (dev_vec v)), (dot_dev_dev (d t) v). field. apply Rgt_not_eq. exact HJ.
Qed.
Lemma mv_dev v i : (i < 6)%nat -> mv 6 dev_mat v i = dev_vec v i.
Proof. intros Hi. unfold mv, dev_mat, dev_vec, delta. do 6 (destruct i as [|i]; [cbn; field|]); lia. Qed.

Definition y_vS (vs va : vec) : vec := fun i => vs i - (yX1 va i + yX2 va i).
Lemma dS_path s a t vs va : path 6 s t vs -> path 14 a t va -> path 6 (fun u => y_dS (s u) (a u)) t (y_vS vs va).
Proof.
  intros Hs Ha i Hi. unfold y_dS, y_vS, yX1, yX2. apply D_minus; [apply Hs; exact Hi|].
  apply D_plus; apply Ha; lia.
Qed.
Lemma dot14 (w v : vec) : dot 14 w v = dot 6 w (yX1 v) + dot 6 (yX2 w) (yX2 v) + w 12%nat * v 12%nat + w 13%nat * v 13%nat.
Proof. unfold dot, yX1, yX2. cbn [rsum Nat.add]. ring. Qed.
Lemma dot_vS d vs va : dot 6 d (y_vS vs va) = dot 6 d vs - dot 6 d (yX1 va) - dot 6 d (yX2 va).
Proof. unfold dot, y_vS. cbn [rsum]. ring. Qed.
Lemma mv_vS A vs va i : mv 6 A (y_vS vs va) i = mv 6 A vs i - mv 6 A (yX1 va) i - mv 6 A (yX2 va) i.
Proof. unfold mv, y_vS. cbn [rsum]. ring. Qed.

(** over stress *)
Definition y_dover (p : yparams) T s a (vs va : vec) : R :=
  (3 / 2 / yJ2 (y_dS s a) * dot 6 (dev_vec (y_dS s a)) (y_vS vs va) - va 13%nat) / yD p T.
Lemma D_over p T s a t vs va : path 6 s t vs -> path 14 a t va -> yD p T <> 0 -> 0 < yJ2 (y_dS (s t) (a t)) ->
  is_derive (fun u => y_over p (s u) (a u) T) t (y_dover p T (s t) (a t) vs va).
Proof.
  intros Hs Ha HD HJ. unfold y_over, y_dover.
  eapply D_eq. apply D_div; [apply D_minus; [apply (D_yJ2 _ t _ (dS_path s a t vs va Hs Ha) HJ)|apply Ha; lia]|apply D_const|exact HD].
  cbv beta. field. split; first [exact HD|lra].
Qed.
Lemma over_pos p s a T : 0 < y_over p s a T -> y_y p s a T = cpow (y_over p s a T) (yn p T) /\ 0 < y_y p s a T.
Proof.
  intros H. unfold y_y. destruct (Rlt_dec 0 (y_over p s a T)) as [L|L]; [|lra]. rewrite Rabs_pos_eq by lra.
  split; [reflexivity|]. rewrite cpow_pos by assumption. apply exp_pos.
Qed.
Lemma over_neg p s a T : y_over p s a T <= 0 -> y_y p s a T = 0.
Proof. intros H. unfold y_y. destruct (Rlt_dec 0 (y_over p s a T)) as [L|L]; [lra|reflexivity]. Qed.
Lemma sp_pos p s a T : 0 < y_over p s a T -> y_sp p s a T = cpow (y_over p s a T) (yn p T - 1) * yn p T / yD p T.
Proof.
  intros H. unfold y_sp, copysign. rewrite Rabs_pos_eq by lra. destruct (Rlt_dec _ 0); [lra|]. rewrite Rabs_pos_eq by lra. f_equal. ring.
Qed.
(** total rate of change of y reported by dy_ds, dy_da *)
Lemma y_report p s a T vs va : 0 < y_over p s a T -> yD p T <> 0 -> 0 < yJ2 (y_dS s a) ->
  dot 6 (y_ys p s a T) vs + dot 14 (y_ya p s a T) va
  = yn p T * cpow (y_over p s a T) (yn p T - 1) * y_dover p T s a vs va.
Proof.
  intros Ho HD HJ. destruct (over_pos p s a T Ho) as [_ Hy].
  rewrite dot14.
  replace (dot 6 (y_ys p s a T) vs) with (dot 6 (dev_vec (y_dS s a)) vs * (3 / 2 / yJ2 (y_dS s a) * y_sp p s a T)).
  2:{ rewrite <- dot_scal_l. apply dot_ext; [|intros i Hi; reflexivity]. intros i Hi. unfold y_ys. destruct (Rlt_dec 0 _); [|lra].
      rewrite devd_eq by assumption. reflexivity. }
  replace (dot 6 (y_ya p s a T) (yX1 va)) with (dot 6 (dev_vec (y_dS s a)) (yX1 va) * (- 3 / 2 / yJ2 (y_dS s a) * y_sp p s a T)).
  2:{ rewrite <- dot_scal_l. apply dot_ext; [|intros i Hi; reflexivity]. intros i Hi. unfold y_ya. destruct (Rlt_dec 0 _); [|lra].
      rewrite ltb_t by assumption. rewrite devd_eq by assumption. reflexivity. }
  replace (dot 6 (yX2 (y_ya p s a T)) (yX2 va)) with (dot 6 (dev_vec (y_dS s a)) (yX2 va) * (- 3 / 2 / yJ2 (y_dS s a) * y_sp p s a T)).
  2:{ rewrite <- dot_scal_l. apply dot_ext; [|intros i Hi; reflexivity]. intros i Hi. unfold yX2, y_ya. destruct (Rlt_dec 0 _); [|lra].
      rewrite ltb_f, ltb_t by lia. replace (6 + i - 6)%nat with i by lia. rewrite devd_eq by assumption. reflexivity. }
  replace (y_ya p s a T 12%nat) with 0 by (unfold y_ya; destruct (Rlt_dec 0 _); reflexivity).
  replace (y_ya p s a T 13%nat) with (- yn p T * cpow (y_over p s a T) (yn p T - 1) / yD p T).
  2:{ unfold y_ya. destruct (Rlt_dec 0 _); [|lra]. change (Nat.ltb 13 6) with false. change (Nat.ltb 13 12) with false. change (Nat.eqb 13 13) with true. cbv iota.
      unfold copysign. rewrite Rabs_pos_eq by lra. destruct (Rlt_dec _ 0); [lra|]. rewrite Rabs_pos_eq by lra. f_equal. ring. }
  rewrite sp_pos by assumption. unfold y_dover. rewrite dot_vS. field. split; first [exact HD|lra].
Qed.
Lemma y_report0 p s a T vs va : y_over p s a T <= 0 -> dot 6 (y_ys p s a T) vs + dot 14 (y_ya p s a T) va = 0.
Proof.
  intros H. pose proof (over_neg p s a T H) as Hy. unfold y_ys, y_ya.
  destruct (Rlt_dec 0 (y_y p s a T)); [lra|]. rewrite !dot_zero_l. ring.
Qed.
Lemma D_y p T s a t vs va : path 6 s t vs -> path 14 a t va -> yD p T <> 0 -> 0 < yJ2 (y_dS (s t) (a t)) -> y_over p (s t) (a t) T <> 0 ->
  is_derive (fun u => y_y p (s u) (a u) T) t (dot 6 (y_ys p (s t) (a t) T) vs + dot 14 (y_ya p (s t) (a t) T) va).
Proof.
  intros Hs Ha HD HJ Ho. pose proof (D_over p T s a t vs va Hs Ha HD HJ) as Do.
  destruct (Rlt_dec 0 (y_over p (s t) (a t) T)) as [L|L].
  - eapply D_eq. eapply (D_loc' (fun u => cpow (y_over p (s u) (a u) T) (yn p T))).
    { eapply (D_cpow (fun u => y_over p (s u) (a u) T)); [exact Do|exact L]. }
    { pose proof (loc_gt _ _ _ 0 Do L) as LL. revert LL. apply filter_imp. intros u Hu. symmetry. apply over_pos. exact Hu. }
    rewrite y_report by assumption. cbv beta. ring.
  - eapply D_eq. eapply (D_loc' (fun u => 0)). apply D_const.
    { assert (L' : y_over p (s t) (a t) T < 0) by lra. pose proof (loc_lt _ _ _ 0 Do L') as LL. revert LL. apply filter_imp. intros u Hu. symmetry. apply over_neg. lra. }
    symmetry. apply y_report0. lra.
Qed.

(** direction *)
Lemma dir_path s a t vs va : path 6 s t vs -> path 14 a t va -> 0 < yJ2 (y_dS (s t) (a t)) ->
  path 6 (fun u => y_dir (s u) (a u)) t (mv 6 (y_gs (s t) (a t)) (y_vS vs va)).
Proof.
  intros Hs Ha HJ i Hi. pose proof (dS_path s a t vs va Hs Ha) as Hd. pose proof (D_yJ2 _ t _ Hd HJ) as DJ. pose proof (dev_path _ t _ Hd i Hi) as Dd.
  unfold y_dir. eapply D_eq. apply D_div; [apply D_mult; [apply D_const|exact Dd]|exact DJ|lra].
  cbv beta. set (d := y_dS (s t) (a t)) in *. set (v := y_vS vs va).
  replace (mv 6 (y_gs (s t) (a t)) v i) with ((mv 6 dev_mat v i - dev_vec d i * (3 / (2 * (yJ2 d * yJ2 d))) * dot 6 (dev_vec d) v) * (3 / (2 * yJ2 d))).
  2:{ unfold mv, dot. rewrite <- rsum_scal, <- rsum_minus, <- rsum_scal_r. apply rsum_ext. intros j Hj. unfold y_gs. fold d. rewrite devd_eq by assumption. ring. }
  rewrite mv_dev by assumption. field. lra.
Qed.
Lemma mv_ga s a va i : mv 14 (y_ga s a) va i = - mv 6 (y_gs s a) (yX1 va) i - mv 6 (y_gs s a) (yX2 va) i.
Proof.
  change (mv 14 (y_ga s a) va i) with (dot 14 (y_ga s a i) va). rewrite dot14. unfold dot, mv, yX1, yX2, y_ga. cbn [rsum Nat.ltb Nat.leb Nat.sub Nat.add]. ring.
Qed.
Lemma g_exact_y s a t vs va : path 6 s t vs -> path 14 a t va -> 0 < yJ2 (y_dS (s t) (a t)) ->
  path 6 (fun u => y_g (s u) (a u)) t (vadd (mv 6 (y_gs (s t) (a t)) vs) (mv 14 (y_ga (s t) (a t)) va)).
Proof.
  intros Hs Ha HJ i Hi. pose proof (dir_path s a t vs va Hs Ha HJ i Hi) as H. cbv beta in H.
  eapply D_eq. eapply (D_loc' (fun u => y_dir (s u) (a u) i)). exact H.
  { pose proof (loc_gt _ _ _ 0 (D_yJ2 _ t _ (dS_path s a t vs va Hs Ha) HJ) HJ) as LL. revert LL. apply filter_imp. intros u Hu. cbv beta in *.
    unfold y_dir, y_g. destruct (Rlt_dec 0 _); [reflexivity|lra]. }
  unfold vadd. rewrite mv_ga, mv_vS. ring.
Qed.
Lemma dot14_delta i v : (i < 14)%nat -> rsum 14 (fun j => delta i j * v j) = v i.
Proof. intros. apply rsum_delta. assumption. Qed.

(** hardening rows *)
Lemma h_exact_y p T s a t vs va : path 6 s t vs -> path 14 a t va -> y_domain p T (s t) (a t) ->
  path 14 (fun u => y_h p (s u) (a u) T) t (vadd (mv 6 (y_hs p (s t) (a t) T) vs) (mv 14 (y_ha p (s t) (a t) T) va)).
Proof.
  intros Hs Ha (HD & HJ & Ho & H13 & Hlt & Hs0 & Hs13 & _) i Hi. unfold vadd.
  pose proof (dir_path s a t vs va Hs Ha HJ) as Hdir.
  destruct (Nat.ltb_spec i 6) as [L6|L6]; [|destruct (Nat.ltb_spec i 12) as [L12|L12]; [|destruct (Nat.eqb_spec i 12) as [E12|E12]]].
  - (* X1 *)
    eapply (D_ext (fun u => yC1 p T * (2 / 3 * (ya10 p T - a u 12%nat) * y_dir (s u) (a u) i - a u i))).
    { intros u. unfold y_h. rewrite ltb_t by assumption. reflexivity. }
    eapply D_eq. apply D_mult; [apply D_const|]. apply D_minus; [apply D_mult; [apply D_mult; [apply D_const|apply D_minus; [apply D_const|apply Ha; lia]]|apply Hdir; exact L6]|apply Ha; lia].
    cbv beta.
    replace (mv 6 (y_hs p (s t) (a t) T) vs i) with (2 / 3 * yC1 p T * (ya10 p T - a t 12%nat) * mv 6 (y_gs (s t) (a t)) vs i).
    2:{ unfold mv. rewrite <- rsum_scal. apply rsum_ext. intros j Hj. unfold y_hs. rewrite ltb_t by assumption. field. }
    replace (mv 14 (y_ha p (s t) (a t) T) va i) with ((2 / 3 * (ya10 p T - a t 12%nat) * mv 14 (y_ga (s t) (a t)) va i - va i) * yC1 p T - yC1 p T * 2 / 3 * y_dir (s t) (a t) i * va 12%nat).
    2:{ unfold mv. rewrite <- (rsum_delta 14 i va) at 1 by lia. rewrite <- (rsum_delta 14 12 va) by lia. rewrite <- !rsum_scal, <- rsum_minus, <- rsum_scal_r, <- rsum_minus.
        apply rsum_ext. intros j Hj. unfold y_ha. rewrite ltb_t by assumption. unfold delta. rewrite (Nat.eqb_sym 12 j). destruct (Nat.eqb j 12); field. }
    rewrite mv_ga, mv_vS. field.
  - (* X2 *)
    eapply (D_ext (fun u => yC2 p T * (2 / 3 * ya2 p T * y_dir (s u) (a u) (i - 6)%nat - a u i))).
    { intros u. unfold y_h. rewrite ltb_f, ltb_t by assumption. reflexivity. }
    eapply D_eq. apply D_mult; [apply D_const|]. apply D_minus; [apply D_mult; [apply D_const|apply Hdir; lia]|apply Ha; lia].
    cbv beta.
    replace (mv 6 (y_hs p (s t) (a t) T) vs i) with (2 / 3 * yC2 p T * ya2 p T * mv 6 (y_gs (s t) (a t)) vs (i - 6)%nat).
    2:{ unfold mv. rewrite <- rsum_scal. apply rsum_ext. intros j Hj. unfold y_hs. rewrite ltb_f, ltb_t by assumption. field. }
    replace (mv 14 (y_ha p (s t) (a t) T) va i) with ((2 / 3 * ya2 p T * mv 14 (y_ga (s t) (a t)) va (i - 6)%nat - va i) * yC2 p T).
    2:{ unfold mv. rewrite <- (rsum_delta 14 i va) at 1 by lia. rewrite <- !rsum_scal, <- rsum_minus, <- rsum_scal_r.
        apply rsum_ext. intros j Hj. unfold y_ha. rewrite ltb_f, ltb_t by assumption. ring. }
    rewrite mv_ga, mv_vS. field.
  - subst i. eapply (D_ext (fun u => yd p T * (yq p T - a u 12%nat))). { intros u. reflexivity. }
    eapply D_eq. apply D_mult; [apply D_const|apply D_minus; [apply D_const|apply Ha; lia]].
    cbv beta. unfold mv.
    rewrite (rsum_ext 6 _ (fun _ => 0)), rsum_0 by (intros; unfold y_hs; cbn [Nat.ltb Nat.leb Nat.eqb]; ring).
    rewrite (rsum_ext 14 _ (fun j => - yd p T * (delta 12 j * va j))).
    2:{ intros j Hj. unfold y_ha, delta. cbn [Nat.ltb Nat.leb]. rewrite (Nat.eqb_sym 12 j). cbn [Nat.eqb]. destruct (Nat.eqb j 12); ring. }
    rewrite rsum_scal, rsum_delta by lia. ring.
  - assert (E : i = 13%nat) by lia. subst i. clear L6 L12 E12 Hi.
    pose proof (D_over p T s a t vs va Hs Ha HD HJ) as Do.
    pose proof (D_y p T s a t vs va Hs Ha HD HJ Ho) as Dy.
    set (dy := dot 6 (y_ys p (s t) (a t) T) vs + dot 14 (y_ya p (s t) (a t) T) va) in *.
    assert (Hm : forall k b, (forall j, y_hs p (s t) (a t) T 13%nat j = k * y_ys p (s t) (a t) T j) ->
        (forall j, y_ha p (s t) (a t) T 13%nat j = k * y_ya p (s t) (a t) T j + b * delta 13 j) ->
        mv 6 (y_hs p (s t) (a t) T) vs 13%nat + mv 14 (y_ha p (s t) (a t) T) va 13%nat = k * dy + b * va 13%nat).
    { intros k b E1 E2. unfold mv, dy, dot. rewrite <- (rsum_delta 14 13 va) by lia.
      rewrite Rmult_plus_distr_l, <- !rsum_scal, Rplus_assoc, <- rsum_plus. f_equal; apply rsum_ext; intros j Hj; [rewrite E1|rewrite E2]; ring. }
    assert (Hd13 : forall j, delta 13 j = if Nat.eqb j 13 then 1 else 0) by (intros j; unfold delta; rewrite Nat.eqb_sym; reflexivity).
    destruct (Rlt_dec log_tol (y_y p (s t) (a t) T)) as [Lt|Lt].
    2:{ (* below the tolerance *)
      assert (L' : y_y p (s t) (a t) T < log_tol) by lra.
      assert (Hpos : forall u, 0 <= y_y p (s u) (a u) T).
      { intros u. destruct (Rlt_dec 0 (y_over p (s u) (a u) T)) as [O|O]; [destruct (over_pos p (s u) (a u) T O); lra|rewrite over_neg by lra; lra]. }
      eapply D_eq. eapply (D_loc' (fun u => 0)). apply D_const.
      { pose proof (loc_lt _ _ _ log_tol Dy L') as LL. revert LL. apply filter_imp. intros u Hu. cbv beta in Hu. unfold y_h. cbn [Nat.ltb Nat.leb Nat.eqb].
        rewrite Rabs_pos_eq by apply Hpos. destruct (Rlt_dec log_tol _); [lra|reflexivity]. }
      rewrite (Hm 0 0); [ring| |].
      - intros j. unfold y_hs. cbn [Nat.ltb Nat.leb Nat.eqb]. rewrite Rabs_pos_eq by apply Hpos. destruct (Rlt_dec log_tol _); [lra|ring].
      - intros j. unfold y_ha. cbn [Nat.ltb Nat.leb Nat.eqb]. rewrite Rabs_pos_eq by apply Hpos. destruct (Rlt_dec log_tol _); [lra|ring]. }
    assert (Htol : 0 < log_tol) by (unfold log_tol; lra).
    assert (Hypos : 0 < y_y p (s t) (a t) T) by lra.
    assert (Dsas : is_derive (fun u => y_sas p (s u) (a u) T) t (yB p T * (dy / (y_y p (s t) (a t) T * ln 10)))).
    { unfold y_sas. eapply D_eq. apply D_plus; [apply D_const|apply D_mult; [apply D_const|apply D_log10; [exact Dy|exact Hypos]]]. cbv beta. ring. }
    pose proof (Ha 13%nat ltac:(lia)) as D13. cbv beta in D13.
    assert (Lln : 0 < ln 10) by (rewrite <- ln_1; apply ln_increasing; lra).
    assert (LocY : locally t (fun u => log_tol < y_y p (s u) (a u) T)) by exact (loc_gt _ _ _ log_tol Dy Lt).
    assert (Dd : is_derive (fun u => y_sas p (s u) (a u) T - a u 13%nat) t (yB p T * (dy / (y_y p (s t) (a t) T * ln 10)) - va 13%nat)) by (apply D_minus; assumption).
    destruct (Rlt_dec 0 (y_sas p (s t) (a t) T)) as [Ls|Ls].
    + assert (LocS : locally t (fun u => 0 < y_sas p (s u) (a u) T)) by exact (loc_gt _ _ _ 0 Dsas Ls).
      destruct (Rlt_dec 0 (y_sas p (s t) (a t) T - a t 13%nat)) as [Lb|Lb].
      * assert (LocB : locally t (fun u => 0 < y_sas p (s u) (a u) T - a u 13%nat)) by exact (loc_gt _ _ _ 0 Dd Lb).
        eapply D_eq. eapply (D_loc' (fun u => ybh p T * (y_sas p (s u) (a u) T - a u 13%nat))). { apply D_mult; [apply D_const|exact Dd]. }
        { generalize (filter_and _ _ LocY (filter_and _ _ LocS LocB)). apply filter_imp. intros u (U1 & U2 & U3). unfold y_h. cbn [Nat.ltb Nat.leb Nat.eqb].
          rewrite Rabs_pos_eq by lra. destruct (Rlt_dec log_tol _); [|lra]. cbv zeta. destruct (Rlt_dec _ 0); [lra|]. destruct (Rle_dec 0 _); [reflexivity|lra]. }
        rewrite (Hm (ybh p T * yB p T / (y_y p (s t) (a t) T * ln 10)) (- ybh p T)). cbv beta. field; lra.
        { intros j. unfold y_hs. cbn [Nat.ltb Nat.leb Nat.eqb]. rewrite Rabs_pos_eq by lra. destruct (Rlt_dec log_tol _); [|lra]. destruct (Rlt_dec 0 _); [|lra]. cbv zeta. destruct (Rle_dec 0 _); [ring|lra]. }
        { intros j. rewrite Hd13. unfold y_ha. cbn [Nat.ltb Nat.leb]. change (Nat.eqb 13 12) with false. cbv iota. rewrite Rabs_pos_eq by lra. destruct (Rlt_dec log_tol _); [|lra]. cbv zeta. destruct (Rlt_dec 0 _); [|lra]. destruct (Rle_dec 0 _); [|lra]. destruct (Nat.eqb j 13); ring. }
      * assert (Lb' : y_sas p (s t) (a t) T - a t 13%nat < 0) by lra.
        assert (LocB : locally t (fun u => y_sas p (s u) (a u) T - a u 13%nat < 0)) by exact (loc_lt _ _ _ 0 Dd Lb').
        eapply D_eq. eapply (D_loc' (fun u => ybr p T * (y_sas p (s u) (a u) T - a u 13%nat))). { apply D_mult; [apply D_const|exact Dd]. }
        { generalize (filter_and _ _ LocY (filter_and _ _ LocS LocB)). apply filter_imp. intros u (U1 & U2 & U3). unfold y_h. cbn [Nat.ltb Nat.leb Nat.eqb].
          rewrite Rabs_pos_eq by lra. destruct (Rlt_dec log_tol _); [|lra]. cbv zeta. destruct (Rlt_dec _ 0); [lra|]. destruct (Rle_dec 0 _); [lra|reflexivity]. }
        rewrite (Hm (ybr p T * yB p T / (y_y p (s t) (a t) T * ln 10)) (- ybr p T)). cbv beta. field; lra.
        { intros j. unfold y_hs. cbn [Nat.ltb Nat.leb Nat.eqb]. rewrite Rabs_pos_eq by lra. destruct (Rlt_dec log_tol _); [|lra]. destruct (Rlt_dec 0 _); [|lra]. cbv zeta. destruct (Rle_dec 0 _); [lra|ring]. }
        { intros j. rewrite Hd13. unfold y_ha. cbn [Nat.ltb Nat.leb]. change (Nat.eqb 13 12) with false. cbv iota. rewrite Rabs_pos_eq by lra. destruct (Rlt_dec log_tol _); [|lra]. cbv zeta. destruct (Rlt_dec 0 _); [|lra]. destruct (Rle_dec 0 _); [lra|]. destruct (Nat.eqb j 13); ring. }
    + assert (Ls' : y_sas p (s t) (a t) T < 0) by lra.
      assert (LocS : locally t (fun u => y_sas p (s u) (a u) T < 0)) by exact (loc_lt _ _ _ 0 Dsas Ls').
      assert (Loc13 : locally t (fun u => 0 < a u 13%nat)) by exact (loc_gt _ _ _ 0 D13 H13).
      eapply D_eq. eapply (D_loc' (fun u => ybr p T * (0 - a u 13%nat))). { apply D_mult; [apply D_const|apply D_minus; [apply D_const|exact D13]]. }
      { generalize (filter_and _ _ LocY (filter_and _ _ LocS Loc13)). apply filter_imp. intros u (U1 & U2 & U3). unfold y_h. cbn [Nat.ltb Nat.leb Nat.eqb].
        rewrite Rabs_pos_eq by lra. destruct (Rlt_dec log_tol _); [|lra]. cbv zeta. destruct (Rlt_dec _ 0); [|lra]. destruct (Rle_dec 0 _); [lra|reflexivity]. }
      rewrite (Hm 0 (- ybr p T)). cbv beta. ring.
      { intros j. unfold y_hs. cbn [Nat.ltb Nat.leb Nat.eqb]. rewrite Rabs_pos_eq by lra. destruct (Rlt_dec log_tol _); [|lra]. destruct (Rlt_dec 0 _); [lra|]. ring. }
      { intros j. rewrite Hd13. unfold y_ha. cbn [Nat.ltb Nat.leb]. change (Nat.eqb 13 12) with false. cbv iota. rewrite Rabs_pos_eq by lra. destruct (Rlt_dec log_tol _); [|lra]. cbv zeta. destruct (Rlt_dec 0 _); [lra|]. destruct (Rle_dec 0 _); [lra|]. destruct (Nat.eqb j 13); ring. }
Qed.

(** static recovery of a deviatoric backstress *)
Lemma rec_path g m X t v : path 6 X t v -> 0 < yJ2 (X t) -> tr2 (usym (X t)) = 0 ->
  path 6 (fun u i => - g * cpow (yJ2 (X u)) (m - 1) * X u i) t (mv 6 (y_rec g m (X t)) v).
Proof.
  intros HX HJ Htr i Hi. pose proof (D_yJ2 X t v HX HJ) as DJ. cbv beta in DJ |- *.
  eapply D_eq. apply D_mult; [apply D_mult; [apply D_const|apply (D_cpow (fun u => yJ2 (X u))); [exact DJ|exact HJ]]|apply HX; exact Hi].
  cbv beta.
  assert (Hdev : dev_vec (X t) i = X t i).
  { unfold dev_vec. assert (Hz : X t 0%nat + X t 1%nat + X t 2%nat = 0) by (cbn in Htr; exact Htr). rewrite Hz. destruct (Nat.ltb i 3); field. }
  replace (mv 6 (y_rec g m (X t)) v i) with (- g * (cpow (yJ2 (X t)) (m - 1) * v i + X t i * ((m - 1) * cpow (yJ2 (X t)) (m - 3) * 3 / 2) * dot 6 (dev_vec (X t)) v)).
  2:{ unfold mv, dot. rewrite <- (rsum_delta 6 i v) by assumption. rewrite <- !rsum_scal, <- rsum_plus, <- rsum_scal. apply rsum_ext. intros j Hj.
      unfold y_rec, delta. rewrite devd_eq, Hdev by assumption. destruct (Nat.eqb i j); ring. }
  assert (Hc : cpow (yJ2 (X t)) (m - 1 - 1) = cpow (yJ2 (X t)) (m - 3) * yJ2 (X t)).
  { rewrite !cpow_pos by assumption. rewrite <- (Rpower_1 (yJ2 (X t))) at 3 by assumption. rewrite <- Rpower_plus. f_equal. ring. }
  rewrite Hc. field. lra.
Qed.
Lemma ht_exact_y p T s a t vs va : path 6 s t vs -> path 14 a t va -> y_domain p T (s t) (a t) ->
  path 14 (fun u => y_ht p (s u) (a u) T) t (vadd (mv 6 (fun _ _ => 0) vs) (mv 14 (y_hta p (s t) (a t) T) va)).
Proof.
  intros Hs Ha (_ & _ & _ & _ & _ & _ & _ & HJ1 & HJ2 & Ht1 & Ht2) i Hi. unfold vadd.
  replace (mv 6 (fun _ _ : nat => 0) vs i) with 0 by (unfold mv; rewrite (rsum_ext 6 _ (fun _ => 0)), rsum_0; [reflexivity|intros; ring]).
  change (mv 14 (y_hta p (s t) (a t) T) va i) with (dot 14 (y_hta p (s t) (a t) T i) va). rewrite dot14.
  assert (P1 : path 6 (fun u => yX1 (a u)) t (yX1 va)) by (intros j Hj; apply Ha; lia).
  assert (P2 : path 6 (fun u => yX2 (a u)) t (yX2 va)) by (intros j Hj; unfold yX2; apply Ha; lia).
  destruct (Nat.ltb_spec i 6) as [L6|L6]; [|destruct (Nat.ltb_spec i 12) as [L12|L12]].
  - eapply (D_ext (fun u => - yg1 p T * cpow (yJ2 (yX1 (a u))) (ym p T - 1) * yX1 (a u) i)).
    { intros u. unfold y_ht. rewrite ltb_t by assumption. reflexivity. }
    eapply D_eq. apply (rec_path (yg1 p T) (ym p T) (fun u => yX1 (a u)) t (yX1 va) P1 HJ1 Ht1 i L6).
    unfold y_hta, yX2, dot, mv. rewrite !ltb_t by assumption. cbn [rsum Nat.ltb Nat.leb Nat.add]. ring.
  - eapply (D_ext (fun u => - yg2 p T * cpow (yJ2 (yX2 (a u))) (ym p T - 1) * yX2 (a u) (i - 6)%nat)).
    { intros u. unfold y_ht, yX2. rewrite ltb_f, ltb_t by assumption. replace (6 + (i - 6))%nat with i by lia. reflexivity. }
    eapply D_eq. apply (rec_path (yg2 p T) (ym p T) (fun u => yX2 (a u)) t (yX2 va) P2 HJ2 Ht2 (i - 6)%nat ltac:(lia)).
    unfold y_hta, dot, mv. unfold yX2 at 4. rewrite !(ltb_f i 6), !(ltb_t i 12) by assumption. cbn [rsum Nat.ltb Nat.leb Nat.add Nat.sub]. ring.
  - eapply (D_ext (fun u => 0)). { intros u. unfold y_ht. rewrite !ltb_f by lia. reflexivity. }
    eapply D_eq. apply D_const. unfold y_hta, yX2. rewrite !(ltb_f i 6), !(ltb_f i 12) by lia. unfold dot. cbn [rsum]. ring.
Qed.
Lemma yaguchi_exact p : vflow_exact (y_domain p) (Yaguchi p).
Proof.
  vsplit.
  - intros T s a t vs va Hs Ha (HD & HJ & Ho & _). apply D_y; assumption.
  - intros T s a t vs va Hs Ha (HD & HJ & Ho & _). apply g_exact_y; assumption.
  - apply zero_part_exact.
  - apply zero_part_exact.
  - intros T s a t vs va Hs Ha HP. apply h_exact_y; assumption.
  - intros T s a t vs va Hs Ha HP. apply ht_exact_y; assumption.
  - apply zero_part_exact.
Qed.
