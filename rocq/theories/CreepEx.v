From Verif Require Import Base.
From Verif Require Import Diff.
From Coq Require Import ClassicalDescription.
From Verif Require Import NemlMathModel NemlMathSpec NemlMathProofs SolverModel SolverSpec SolverProofs SubstepModel SurfModel SurfSpec SurfProofs HardProofs RiProofs.
From Verif Require Import PlastModel PlastSpec PlastProofs ViscoProofs YaguchiProofs CreepModel CreepSpec CreepProofs J2CreepProofs CreepPlastProofs.

(** Linear J2 creep (2/3) seq of an elastic bar held at axial stress 1. *)
Definition lin_r : srule := PowerLawCreep (fun _ => 2 / 3) (fun _ => 1).
Definition lin_M : crmodel := J2Creep lin_r.
Lemma lin_f s e t T i : eps <= seq s -> cr_f lin_M s e t T i = dev_vec s i.
Proof.
  intros H. pose proof eps_pos. unfold lin_M, lin_r. cbn [cr_f J2Creep sc_g PowerLawCreep]. unfold sdir. destruct (Rlt_dec (seq s) eps); [lra|].
  rewrite cpow_pos, Rpower_1 by lra. field. lra.
Qed.
Lemma dev_ext6 s s' : veq 6 s s' -> veq 6 (dev_vec s) (dev_vec s').
Proof. intros H i Hi. unfold dev_vec. rewrite !H by lia. reflexivity. Qed.
Lemma seq_ext s s' : veq 6 s s' -> seq s = seq s'.
Proof. intros H. unfold seq, norm2. rewrite (dot_ext 6 _ (dev_vec s') _ (dev_vec s')); [reflexivity|apply dev_ext6, H|apply dev_ext6, H]. Qed.
Lemma uni1_seq s : veq 6 s (uni 1) -> seq s = 1.
Proof. intros H. rewrite (seq_ext _ _ H), seq_uni. apply Rabs_R1. Qed.
Definition devm : mat := fun i j => delta i j - (if andb (Nat.ltb i 3) (Nat.ltb j 3) then 1 / 3 else 0).
Lemma lin_fs s e t T i j : veq 6 s (uni 1) -> (i < 6)%nat -> (j < 6)%nat -> cr_fs lin_M s e t T i j = devm i j.
Proof.
  intros Hs Hi Hj. pose proof eps_pos. pose proof eps_lt_1. unfold lin_M, lin_r. cbn [cr_fs J2Creep sc_g sc_gs PowerLawCreep].
  rewrite (uni1_seq s Hs). rewrite clamp_big by lra.
  replace (1 - 1) with 0 by ring. rewrite !cpow_pos by lra. rewrite Rpower_1, Rpower_O by lra.
  unfold mm. rewrite (rsum_ext 6 _ (fun k => 2 / 3 * (delta i k * cr_ID k j))).
  - rewrite rsum_scal, (rsum_delta 6 i (fun k => cr_ID k j) Hi). unfold cr_ID, devm. field.
  - intros k Hk. field.
Qed.
Definition Kd : mat := fun i j => delta i j - devm i j / 2.
Definition lsd (J : mat) (b : vec) : option vec := if excluded_middle_informative (forall i, (i < 6)%nat -> mv 6 J b i = b i) then Some b else None.
Definition invd (n : nat) (J : mat) : option mat :=
  if excluded_middle_informative (two_inverse n delta J) then Some delta
  else if excluded_middle_informative (two_inverse n Kd J) then Some Kd else None.
Lemma invd_ok : inv_ok invd.
Proof.
  intros n J K. unfold invd. destruct (excluded_middle_informative _) as [H|]; [intros E; injection E as <-; exact H|].
  destruct (excluded_middle_informative _) as [H|]; [intros E; injection E as <-; exact H|discriminate].
Qed.
Definition prmd : sparams := {| rtol := 0; atol := / 10; miter := 10; linesearch := false |}.
Lemma newton_at_init n init RJ ls prm r J : RJ init = Some (r, J) -> norm2 n r < atol prm -> (1 <= miter prm)%Z ->
  newton (vec_sys n init RJ ls) prm = Ok (init, (r, J), 1%nat).
Proof.
  intros HR Hn Hm. unfold newton. cbn [sys_RJ sys_init vec_sys]. rewrite HR. cbn [newton_loop sys_norm vec_sys fst]. unfold conv_test.
  cbn [flt]. destruct (Rlt_dec (norm2 n r) (atol prm)); [|contradiction]. cbn [orb]. destruct (Z.eqb_spec 0 (miter prm)); [lia|reflexivity].
Qed.

Lemma newton_one n init RJ ls prm r0 J0 d r1 J1 : linesearch prm = false -> (2 <= miter prm)%Z -> rtol prm = 0 ->
  RJ init = Some (r0, J0) -> atol prm <= norm2 n r0 -> ls J0 r0 = Some d -> RJ (fun j => init j - 1 * d j) = Some (r1, J1) -> norm2 n r1 < atol prm ->
  exists c, newton (vec_sys n init RJ ls) prm = Ok ((fun j => init j - 1 * d j), (r1, J1), c).
Proof.
  intros Hl Hm Hr H0 Hn0 Hs H1 Hn1. apply newton_iff; [lia|]. exists 1%nat, (r0, J0). split; [lia|]. split.
  - eapply reached_S; [apply reached_0; exact H0| |].
    + intros (r & E & H). cbn [sys_norm vec_sys fst] in E, H. injection E as <-. rewrite Hr in H. destruct H as [H|(q & E0 & Hq & H)]; [lra|]. injection E0 as <-.
      assert (norm2 n r0 / norm2 n r0 = 1) by (field; exact Hq). lra.
    + exists d. split; [exact Hs|]. rewrite Hl. split; [reflexivity|exact H1].
  - exists (norm2 n r1). split; [reflexivity|]. left. exact Hn1.
Qed.
Lemma mv_delta b i : (i < 6)%nat -> mv 6 delta b i = b i.
Proof. intros Hi. apply (rsum_delta 6 i b Hi). Qed.
Lemma two_inverse_delta J : (forall i j, J i j = delta i j) -> two_inverse 6 delta J.
Proof.
  intros H. split; intros i j Hi Hj; unfold mm.
  - rewrite (rsum_delta 6 i (fun k => J k j) Hi). apply H.
  - rewrite (rsum_ext 6 _ (fun k => delta i k * delta k j)) by (intros; rewrite H; reflexivity). apply (rsum_delta 6 i (fun k => delta k j) Hi).
Qed.
Lemma invd_delta J : (forall i j, J i j = delta i j) -> invd 6 J = Some delta.
Proof. intros H. unfold invd. destruct (excluded_middle_informative _) as [|N]; [reflexivity|]. exfalso. apply N, two_inverse_delta, H. Qed.
Lemma norm_small r : veq 6 r vzero -> norm2 6 r = 0.
Proof. intros H. unfold norm2. rewrite (dot_ext 6 _ vzero _ vzero H H). rewrite <- sqrt_0. f_equal. unfold dot, vzero. cbn [rsum]. ring. Qed.
(** one unit of time of creep under the stress [uni 1] *)
Lemma creep_step s en : veq 6 s (uni 1) -> veq 6 en vzero -> exists x A, cr_update lsd invd prmd lin_M s en 0 0 1 0 = Some (x, A) /\
  veq 6 x (dev_vec (uni 1)) /\ forall i j, (i < 6)%nat -> (j < 6)%nat -> A i j = devm i j.
Proof.
  intros Hs He. pose proof eps_lt_1.
  assert (RR : forall x i, (i < 6)%nat -> cr_R lin_M s en 0 1 (1 - 0) x i = x i - dev_vec (uni 1) i).
  { intros x i Hi. unfold cr_R. rewrite lin_f by (rewrite (uni1_seq s Hs); lra). rewrite (dev_ext6 _ _ Hs i Hi), (He i Hi). unfold vzero. ring. }
  assert (JJ : forall x i j, cr_J lin_M s 0 1 (1 - 0) x i j = delta i j).
  { intros x i j. unfold cr_J, lin_M, lin_r. cbn [cr_fe J2Creep sc_ge PowerLawCreep]. unfold zero4. ring. }
  pose (d := cr_R lin_M s en 0 1 (1 - 0) en). pose (x1 := (fun j => en j - 1 * d j) : vec).
  destruct (newton_one 6 en (fun x : vec => Some (cr_R lin_M s en 0 1 (1 - 0) x, cr_J lin_M s 0 1 (1 - 0) x)) lsd prmd
     d (cr_J lin_M s 0 1 (1 - 0) en) d (cr_R lin_M s en 0 1 (1 - 0) x1) (cr_J lin_M s 0 1 (1 - 0) x1)) as (c & HN); try reflexivity.
  - unfold prmd, miter. lia.
  - apply Rlt_le, norm_gt; [unfold prmd, atol; lra|]. unfold dot. cbn [rsum]. unfold d. rewrite !RR by lia. rewrite !He by lia. unfold prmd, atol, vzero, dev_vec, uni. cbn. lra.
  - unfold lsd. destruct (excluded_middle_informative _) as [|N]; [reflexivity|]. exfalso. apply N. intros i Hi.
    transitivity (mv 6 delta d i); [|apply mv_delta, Hi]. unfold mv. apply rsum_ext. intros j Hj. rewrite JJ. reflexivity.
  - rewrite norm_small; [unfold prmd, atol; lra|]. intros i Hi. rewrite RR by exact Hi. unfold x1, d. rewrite RR by exact Hi. rewrite (He i Hi). unfold vzero. ring.
  - unfold cr_update, cr_solve. rewrite HN. unfold cr_tangent. rewrite (invd_delta _ (JJ _)). eexists _, _. split; [reflexivity|]. split.
    + intros i Hi. unfold d. rewrite RR by exact Hi. rewrite (He i Hi). unfold vzero. ring.
    + intros i j Hi Hj. unfold mm. rewrite (rsum_ext 6 _ (fun k => delta i k * cr_fs lin_M s x1 1 0 k j)) by (intros; unfold x1; ring).
      rewrite (rsum_delta 6 i (fun k => cr_fs lin_M s x1 1 0 k j) Hi). apply lin_fs; assumption.
Qed.
(** the elastic base model s = e, with one history variable that stays at its initial value 7 *)
Definition bar : base :=
  {| ba_nh := 1%nat; ba_update := fun n p sn hn u q => Some {| pr_s := ld_e n; pr_h := hn; pr_A := delta; pr_u := u; pr_p := q |}; ba_init := fun _ => 7 |}.
Lemma bar_free : energy_free bar.
Proof. intros n p sn hn u0 p0 u1 p1. cbn. auto. Qed.
Lemma devm_idem i j : (i < 6)%nat -> (j < 6)%nat -> mm 6 devm devm i j = devm i j.
Proof.
  intros Hi Hj. unfold mm, devm, delta. do 6 (destruct i as [|i]; [do 6 (destruct j as [|j]; [cbn; field|]); lia|]); lia.
Qed.
Lemma Kd_inverse J : (forall i j, (i < 6)%nat -> (j < 6)%nat -> J i j = delta i j + devm i j) -> two_inverse 6 Kd J.
Proof.
  intros H. split; intros i j Hi Hj; unfold mm, Kd.
  - rewrite (rsum_ext 6 _ (fun k => (delta i k - devm i k / 2) * (delta k j + devm k j))) by (intros k Hk; rewrite H by assumption; reflexivity).
    clear H. unfold devm, delta. do 6 (destruct i as [|i]; [do 6 (destruct j as [|j]; [cbn; field|]); lia|]); lia.
  - rewrite (rsum_ext 6 _ (fun k => (delta i k + devm i k) * (delta k j - devm k j / 2))) by (intros k Hk; rewrite H by assumption; reflexivity).
    clear H. unfold devm, delta. do 6 (destruct i as [|i]; [do 6 (destruct j as [|j]; [cbn; field|]); lia|]); lia.
Qed.
Definition hold (e : vec) (t : R) : load := {| ld_e := e; ld_T := 0; ld_t := t |}.
Definition bar_h : vec := fun i => if Nat.ltb i 6 then uni 1 i else 7.
Lemma hold_step : exists res, sscp_update lsd invd prmd (cr_update lsd invd prmd lin_M) bar 1
    (hold (vadd (uni 1) (dev_vec (uni 1))) 1) (hold (uni 1) 0) (uni 1) bar_h 0 0 = Some res /\
  veq 6 (pr_s res) (uni 1) /\ veq 6 (pr_h res) (uni 1) /\ pr_h res 6%nat = 7 /\ pr_p res = 2 / 3 /\
  (forall i j, (i < 6)%nat -> (j < 6)%nat -> pr_A res i j = Kd i j).
Proof.
  set (next := hold _ 1). set (past := hold (uni 1) 0).
  assert (Hb : veq 6 bar_h (uni 1)) by (intros i Hi; unfold bar_h; apply Nat.ltb_lt in Hi; rewrite Hi; reflexivity).
  pose (en := fun i => ld_e past i - sscp_ep bar_h i).
  assert (He : veq 6 en vzero) by (intros i Hi; unfold en, sscp_ep; rewrite Hb by exact Hi; unfold past, hold, vzero; cbn [ld_e]; ring).
  destruct (creep_step bar_h en Hb He) as (x & B & HC & Hx & HB).
  assert (HR : sscp_RJ (cr_update lsd invd prmd lin_M) bar 1 next past (uni 1) bar_h (sscp_ep bar_h) =
     Some (fun i => (sscp_ep bar_h i + x i - ld_e next i) * 1, fun i j => (mm 6 B delta i j + delta i j) * 1)).
  { unfold sscp_RJ. cbn [ba_update bar pr_s pr_A with_e ld_e]. change (sscp_ep bar_h) with bar_h at 1. fold en.
    change (ld_T next) with 0. change (ld_T past) with 0. change (ld_t next) with 1. change (ld_t past) with 0. rewrite HC. reflexivity. }
  unfold sscp_update. rewrite (newton_at_init 6 (sscp_ep bar_h) _ lsd prmd _ _ HR).
  2:{ rewrite norm_small; [unfold prmd, atol; lra|]. intros i Hi. unfold sscp_ep. rewrite (Hb i Hi), (Hx i Hi). unfold next, hold, vadd, vzero. cbn [ld_e]. ring. }
  2:{ unfold prmd, miter. lia. }
  cbn [ba_update bar pr_s pr_A pr_h pr_p with_e ld_e]. change (sscp_ep bar_h) with bar_h at 1. fold en.
  change (ld_T next) with 0. change (ld_T past) with 0. change (ld_t next) with 1. change (ld_t past) with 0. rewrite HC.
  assert (HJ : forall i j, (i < 6)%nat -> (j < 6)%nat -> mm 6 delta B i j + delta i j = delta i j + devm i j).
  { intros i j Hi Hj. unfold mm. rewrite (rsum_delta 6 i (fun k => B k j) Hi). rewrite HB by assumption. ring. }
  assert (HI : invd 6 (fun i j => mm 6 delta B i j + delta i j) = Some Kd).
  { unfold invd. destruct (excluded_middle_informative _) as [D|_].
    - exfalso. destruct D as [D _]. specialize (D 3%nat 3%nat ltac:(lia) ltac:(lia)). unfold mm at 1 in D.
      rewrite (rsum_delta 6 3 (fun k => mm 6 delta B k 3%nat + delta k 3%nat) ltac:(lia)) in D. rewrite HJ in D by lia. unfold devm, delta in D. cbn in D. lra.
    - destruct (excluded_middle_informative _) as [_|N]; [reflexivity|]. exfalso. apply N, Kd_inverse, HJ. }
  unfold form_tangent. rewrite HI. eexists. split; [reflexivity|]. cbn [pr_s pr_h pr_A pr_p].
  split; [exact Hb|]. split. { intros i Hi. pose proof Hi as Hi2. apply Nat.ltb_lt in Hi2. rewrite Hi2. apply Hb, Hi. }
  split; [reflexivity|]. split.
  - rewrite (dot_ext 6 _ (fun i => 2 * uni 1 i) _ (dev_vec (uni 1))).
    + unfold dot, uni, dev_vec. cbn. field.
    + intros i Hi. unfold vadd, sscp_ep. rewrite (Hb i Hi). ring.
    + intros i Hi. unfold vsub. fold (en i). rewrite (Hx i Hi). change (ld_e past i - sscp_ep bar_h i) with (en i). rewrite (He i Hi). unfold vzero. ring.
  - intros i j Hi Hj. 
    assert (E1 : forall a b, (a < 6)%nat -> (b < 6)%nat -> mm 6 Kd delta a b = Kd a b).
    { intros a b Ha Hc. unfold mm. rewrite (rsum_ext 6 _ (fun k => delta b k * Kd a k)) by (intros k Hk; unfold delta; rewrite (Nat.eqb_sym k b); ring). apply (rsum_delta 6 b (fun k => Kd a k) Hc). }
    assert (E2 : forall a b, (a < 6)%nat -> (b < 6)%nat -> mm 6 B (mm 6 Kd delta) a b = devm a b / 2).
    { intros a b Ha Hc. unfold mm at 1. rewrite (rsum_ext 6 _ (fun k => devm a k * Kd k b)) by (intros k Hk; rewrite HB, E1 by assumption; reflexivity).
      unfold Kd, devm, delta. do 6 (destruct a as [|a]; [do 6 (destruct b as [|b]; [cbn; field|]); lia|]); lia. }
    unfold mm at 1. rewrite (rsum_delta 6 i (fun k => mm 6 B (mm 6 Kd delta) k j) Hi). rewrite E2 by assumption. unfold Kd. reflexivity.
Qed.
