(** More on polycrystals, and twin reorientation. *)
From Verif Require Import Base.
From Verif Require Import Diff.
From Verif Require Import NemlMathModel.
From Verif Require Import NemlMathSpec.
From Verif Require Import RotModel.
From Verif Require Import RotSpec.
From Verif Require Import RotProofs.
From Verif Require Import PolyModel.
From Verif Require Import PolySpec.
From Verif Require Import PolyProofs.
From Coq Require Import List Arith Lia Lra Permutation FunctionalExtensionality.
Import ListNotations.

(** *** A polycrystal of equal crystals *)
Lemma wsum_rsum w : wsum w = rsum (length w) (fun i => nth i w 0).
Proof.
  assert (G : forall n f, rsum (S n) f = f 0%nat + rsum n (fun i => f (S i))).
  { induction n as [|n IH]; intros f; [cbn; ring|]. change (rsum (S (S n)) f) with (rsum (S n) f + f (S n)). rewrite IH. cbn [rsum]. ring. }
  induction w as [|x w IH]; [reflexivity|]. change (length (x :: w)) with (S (length w)). rewrite G. cbn [nth wsum fold_right]. fold (wsum w). rewrite IH. reflexivity.
Qed.
Lemma mean_const n w c : length w = n -> wsum w = 1 -> mean n w (fun _ => c) = c.
Proof. intros L W. unfold mean. rewrite rsum_scal_r. rewrite <- L, <- wsum_rsum, W. ring. Qed.
Lemma uniform m nh n w gs h u p X ts : (0 < n)%nat -> length w = n -> wsum w = 1 ->
  Forall (fun go => Permutation (snd go) (seq 0 n)) gs -> holds nh n h (fun _ => X) -> taylor_run m nh n w gs h u p = Some ts ->
  exists rs, solo_run m nh (map fst gs) X = Some rs /\
    Forall2 (fun t r => (forall j, (j < 6)%nat -> t_s t j = c_s r j) /\ (forall j, (j < 36)%nat -> t_A t j = c_A r j) /\ (forall j, (j < 18)%nat -> t_B t j = c_B r j)) ts rs.
Proof.
  intros Hn Lw W HF HX H. destruct (taylor_averages m nh n w gs h u p (fun _ => X) ts HF HX H) as (rs & Hrs & Hav).
  exists (rs 0%nat). split; [apply Hrs; exact Hn|].
  assert (Hsame : forall i, (i < n)%nat -> rs i = rs 0%nat) by (intros i Hi; pose proof (Hrs i Hi) as A; pose proof (Hrs 0%nat Hn) as B; rewrite A in B; injection B as B; exact B).
  clear Hrs H. revert rs Hsame u p Hav. clear HX HF. induction ts as [|t ts IH]; intros rs Hsame u p Hav; cbn [averages] in Hav.
  - rewrite (Hav 0%nat Hn). constructor.
  - destruct Hav as (r & rs' & Hr & Hs & HA & HB & _ & _ & Hav). rewrite (Hr 0%nat Hn).
    assert (Er : forall i, (i < n)%nat -> r i = r 0%nat /\ rs' i = rs' 0%nat).
    { intros i Hi. pose proof (Hsame i Hi) as E. rewrite (Hr i Hi), (Hr 0%nat Hn) in E. injection E as E1 E2. split; assumption. }
    constructor; [|apply (IH rs' (fun i Hi => proj2 (Er i Hi)) _ _ Hav)].
    split; [|split]; intros j Hj; [rewrite (Hs j Hj)|rewrite (HA j Hj)|rewrite (HB j Hj)].
    + rewrite <- (mean_const n w (c_s (r 0%nat) j) Lw W). apply rsum_ext. intros i Hi. rewrite (proj1 (Er i Hi)). reflexivity.
    + rewrite <- (mean_const n w (c_A (r 0%nat) j) Lw W). apply rsum_ext. intros i Hi. rewrite (proj1 (Er i Hi)). reflexivity.
    + rewrite <- (mean_const n w (c_B (r 0%nat) j) Lw W). apply rsum_ext. intros i Hi. rewrite (proj1 (Er i Hi)). reflexivity.
Qed.

(** *** The tangents of the polycrystal *)
Lemma taylor_tangents m nh n w order g h u p X (C : nat -> vec -> vec -> cout) (Tf : vec -> vec -> tout) :
  Permutation order (seq 0 n) -> holds nh n h X ->
  (forall d v, taylor m nh n w order d v (g_T1 g) (g_T0 g) (g_t1 g) (g_t0 g) h u p = Some (Tf d v)) ->
  (forall i d v, (i < n)%nat -> solo_step m (with_dv g d v) (X i) = Some (C i d v)) ->
  forall d v t dd dv, path 6 d t dd -> path 3 v t dv ->
  (forall i, (i < n)%nat -> path 6 (fun x => c_s (C i (d x) (v x))) t
     (vadd (mv 6 (fun a b => c_A (C i (d t) (v t)) (a * 6 + b)%nat) dd) (mv 3 (fun a b => c_B (C i (d t) (v t)) (a * 3 + b)%nat) dv))) ->
  path 6 (fun x => t_s (Tf (d x) (v x))) t
     (vadd (mv 6 (fun a b => t_A (Tf (d t) (v t)) (a * 6 + b)%nat) dd) (mv 3 (fun a b => t_B (Tf (d t) (v t)) (a * 3 + b)%nat) dv)).
Proof.
  intros P HX HT HC d v t dd dv _ _ Hp.
  assert (E : forall d v, (forall j, (j < 6)%nat -> t_s (Tf d v) j = mean n w (fun i => c_s (C i d v) j)) /\
     (forall j, (j < 36)%nat -> t_A (Tf d v) j = mean n w (fun i => c_A (C i d v) j)) /\ (forall j, (j < 18)%nat -> t_B (Tf d v) j = mean n w (fun i => c_B (C i d v) j))).
  { intros d' v'. destruct (taylor_step_ok m nh n w order (with_dv g d' v') h u p X (Tf d' v') P HX (HT d' v')) as (r & Hr & Hs & HA & HB & _).
    assert (Er : forall i, (i < n)%nat -> r i = C i d' v') by (intros i Hi; pose proof (Hr i Hi) as A; rewrite (HC i d' v' Hi) in A; injection A as A; symmetry; exact A).
    split; [|split]; intros j Hj; [rewrite (Hs j Hj)|rewrite (HA j Hj)|rewrite (HB j Hj)]; apply rsum_ext; intros i Hi; rewrite (Er i Hi); reflexivity. }
  intros j Hj. apply (D_ext (fun x => mean n w (fun i => c_s (C i (d x) (v x)) j))); [intros x; symmetry; apply E; exact Hj|].
  unfold mean. eapply D_eq.
  - apply (D_rsum n (fun x i => nth i w 0 * c_s (C i (d x) (v x)) j)). intros i Hi. apply (D_mult (fun _ => nth i w 0) (fun x => c_s (C i (d x) (v x)) j)); [apply D_const|apply (Hp i Hi j Hj)].
  - unfold vadd, mv. destruct (E (d t) (v t)) as (_ & HA & HB).
    rewrite (rsum_ext 6 (fun k => t_A (Tf (d t) (v t)) (j * 6 + k)%nat * dd k) (fun k => rsum n (fun i => nth i w 0 * (c_A (C i (d t) (v t)) (j * 6 + k)%nat * dd k)))).
    2:{ intros k Hk. rewrite HA by lia. unfold mean. rewrite <- rsum_scal_r. apply rsum_ext. intros i Hi. ring. }
    rewrite (rsum_ext 3 (fun k => t_B (Tf (d t) (v t)) (j * 3 + k)%nat * dv k) (fun k => rsum n (fun i => nth i w 0 * (c_B (C i (d t) (v t)) (j * 3 + k)%nat * dv k)))).
    2:{ intros k Hk. rewrite HB by lia. unfold mean. rewrite <- rsum_scal_r. apply rsum_ext. intros i Hi. ring. }
    rewrite (rsum_swap 6 n), (rsum_swap 3 n). rewrite <- rsum_plus. apply rsum_ext. intros i Hi. rewrite !rsum_scal. ring.
Qed.

(** *** Elastic strains of the polycrystal *)
Lemma estrain_six es w e : taylor_estrain es 6 w = Some e -> forall j, (j < 6)%nat -> e j = mean 6 w (fun i => es i j).
Proof. unfold taylor_estrain. cbn [Nat.leb]. intros H; injection H as <-. intros j Hj. rewrite (proj2 (Nat.ltb_lt j 6)) by exact Hj. reflexivity. Qed.
Lemma estrain_one es w e : taylor_estrain es 1 w = Some e -> forall j, (1 <= j < 6)%nat -> e j = 0.
Proof. unfold taylor_estrain. cbn [Nat.leb]. intros H; injection H as <-. intros j Hj. rewrite (proj2 (Nat.ltb_ge j 1)) by lia. reflexivity. Qed.
Lemma estrain_refuted : exists (es : nat -> vec) n w e j, wsum w = 1 /\ length w = n /\ (j < 6)%nat /\ taylor_estrain es n w = Some e /\ e j <> mean n w (fun i => es i j).
Proof.
  exists (fun _ _ => 1), 1%nat, [1], (fun j => if Nat.ltb j 1 then rsum 1 (fun i => nth i [1] 0 * 1) else 0), 1%nat.
  split; [cbn; ring|]. split; [reflexivity|]. split; [lia|]. split; [reflexivity|]. unfold mean. cbn. lra.
Qed.
Lemma estrain_overrun es n w : (6 < n)%nat -> taylor_estrain es n w = None.
Proof. intros H. unfold taylor_estrain. rewrite (proj2 (Nat.leb_gt n 6)) by exact H. reflexivity. Qed.

(** *** Twin reorientation *)
Lemma frac_shift s ss sl j : frac (s :: ss) sl (S j) = frac ss (fun i => sl (S i)) j.
Proof. reflexivity. Qed.
Lemma over_shift thr s ss sl j : over thr (s :: ss) sl (S j) <-> over thr ss (fun i => sl (S i)) j.
Proof. reflexivity. Qed.
Lemma over_dec thr ss sl j : {over thr ss sl j} + {~ over thr ss sl j}.
Proof.
  unfold over, twin_at, frac. destruct (nth_error ss j) as [s|] eqn:E.
  - destruct (p_twin s) eqn:T; [|right; intros [(s' & E' & T') _]; injection E' as <-; congruence].
    destruct (Rlt_dec thr (sl j / p_shear s)) as [L|L]; [left|right; intros [_ C]; contradiction]. split; [|exact L]. exists s. split; [reflexivity|exact T].
  - right. intros [(s' & E' & _) _]. discriminate.
Qed.
(** a scan from a state that is already twinned only records fractions *)
Lemma scan_slip thr : forall ss k st, p_slip (ptr_scan thr k ss st) = p_slip st.
Proof.
  induction ss as [|s ss IH]; intros k st; cbn [ptr_scan]; [reflexivity|]. rewrite IH.
  destruct (p_twin s); [|reflexivity]. destruct (Rlt_dec _ _); [destruct (Rlt_dec _ _)|]; reflexivity.
Qed.
Lemma scan_frac thr : forall ss k st,
  (forall j, twin_at ss j -> p_frac (ptr_scan thr k ss st) (k + j)%nat = frac ss (fun i => p_slip st (k + i)%nat) j) /\
  (forall j, (j < k)%nat -> p_frac (ptr_scan thr k ss st) j = p_frac st j) /\
  (forall j, ~ twin_at ss j -> p_frac (ptr_scan thr k ss st) (k + j)%nat = p_frac st (k + j)%nat).
Proof.
  induction ss as [|s ss IH]; intros k st; cbn [ptr_scan].
  - split; [intros j (s & E & _); destruct j; discriminate|]. split; reflexivity.
  - set (st' := if p_twin s then _ else st). destruct (IH (S k) st') as (H1 & H2 & H3).
    assert (Hs : p_slip st' = p_slip st) by (unfold st'; destruct (p_twin s); [|reflexivity]; destruct (Rlt_dec _ _); [destruct (Rlt_dec _ _)|]; reflexivity).
    assert (Hf : p_frac st' = if p_twin s then upd (p_frac st) k (p_slip st k / p_shear s) else p_frac st)
      by (unfold st'; destruct (p_twin s); [|reflexivity]; destruct (Rlt_dec _ _); [destruct (Rlt_dec _ _)|]; reflexivity).
    split; [|split].
    + intros [|j] Hj.
      * rewrite Nat.add_0_r. rewrite H2 by lia. rewrite Hf. destruct Hj as (s' & E & T). cbn in E. injection E as <-. rewrite T. unfold upd, frac. cbn [nth_error]. rewrite Nat.eqb_refl, Nat.add_0_r. reflexivity.
      * replace (k + S j)%nat with (S k + j)%nat by lia. rewrite H1 by exact Hj. rewrite frac_shift. rewrite Hs. f_equal. apply functional_extensionality. intros i. f_equal. lia.
    + intros j Hj. rewrite H2 by lia. rewrite Hf. destruct (p_twin s); [|reflexivity]. unfold upd. rewrite (proj2 (Nat.eqb_neq j k)) by lia. reflexivity.
    + intros [|j] Hj.
      * rewrite Nat.add_0_r. rewrite H2 by lia. rewrite Hf. destruct (p_twin s) eqn:T; [|reflexivity]. exfalso. apply Hj. exists s. split; [reflexivity|exact T].
      * replace (k + S j)%nat with (S k + j)%nat by lia. rewrite H3 by exact Hj. rewrite Hf. destruct (p_twin s); [|reflexivity]. unfold upd. rewrite (proj2 (Nat.eqb_neq _ k)) by lia. reflexivity.
Qed.
Lemma scan_twinned thr : forall ss k st, 1 / 2 <= p_twinned st ->
  p_twinned (ptr_scan thr k ss st) = p_twinned st /\ p_rot (ptr_scan thr k ss st) = p_rot st /\ p_rot0 (ptr_scan thr k ss st) = p_rot0 st.
Proof.
  induction ss as [|s ss IH]; intros k st H; cbn [ptr_scan]; [repeat split; reflexivity|].
  destruct (p_twin s); [|apply IH; exact H]. destruct (Rlt_dec thr _); [destruct (Rlt_dec (p_twinned st) (1 / 2)); [lra|]|];
  match goal with |- context [ptr_scan thr (S k) ss ?x] => destruct (IH (S k) x H) as (A & B & C) end; rewrite A, B, C; repeat split; reflexivity.
Qed.
Lemma scan_none thr : forall ss k st, (forall j, ~ over thr ss (fun i => p_slip st (k + i)%nat) j) ->
  p_twinned (ptr_scan thr k ss st) = p_twinned st /\ p_rot (ptr_scan thr k ss st) = p_rot st /\ p_rot0 (ptr_scan thr k ss st) = p_rot0 st.
Proof.
  induction ss as [|s ss IH]; intros k st H; cbn [ptr_scan]; [repeat split; reflexivity|].
  assert (Hsh : forall st', p_slip st' = p_slip st -> forall j, ~ over thr ss (fun i => p_slip st' (S k + i)%nat) j).
  { intros st' E j C. apply (H (S j)). apply over_shift. rewrite E in C. replace (fun i => p_slip st (k + S i)%nat) with (fun i => p_slip st (S k + i)%nat); [exact C|].
    apply functional_extensionality. intros i. f_equal. lia. }
  destruct (p_twin s) eqn:T; [|apply IH; apply Hsh; reflexivity].
  destruct (Rlt_dec thr (p_slip st k / p_shear s)) as [L|L].
  - exfalso. apply (H 0%nat). split; [exists s; split; [reflexivity|exact T]|]. unfold frac. cbn [nth_error]. rewrite Nat.add_0_r. exact L.
  - match goal with |- context [ptr_scan thr (S k) ss ?x] => destruct (IH (S k) x (Hsh x eq_refl)) as (A & B & C) end. rewrite A, B, C. cbn [p_twinned p_rot p_rot0]. repeat split; reflexivity.
Qed.
Lemma scan_first thr : forall ss k st j, p_twinned st < 1 / 2 -> first_over thr ss (fun i => p_slip st (k + i)%nat) j ->
  p_twinned (ptr_scan thr k ss st) = 1 /\ p_rot (ptr_scan thr k ss st) = qmul (turn_of ss j) (p_rot st) /\ p_rot0 (ptr_scan thr k ss st) = qmul (turn_of ss j) (p_rot st).
Proof.
  induction ss as [|s ss IH]; intros k st j Ht [Ho Hf]; cbn [ptr_scan]; [exfalso; destruct Ho as [(s & E & _) _]; destruct j; discriminate|].
  assert (Eq : (fun i => p_slip st (k + S i)%nat) = (fun i => p_slip st (S k + i)%nat)) by (apply functional_extensionality; intros i; f_equal; lia).
  destruct j as [|j].
  - destruct Ho as [(s' & E & T) L]. cbn in E. injection E as <-. rewrite T. unfold frac in L. cbn [nth_error] in L. rewrite Nat.add_0_r in L.
    destruct (Rlt_dec thr (p_slip st k / p_shear s)) as [_|N]; [|contradiction]. destruct (Rlt_dec (p_twinned st) (1 / 2)) as [_|N]; [|contradiction].
    match goal with |- context [ptr_scan thr (S k) ss ?x] => destruct (scan_twinned thr ss (S k) x ltac:(cbn [p_twinned]; lra)) as (A & B & C) end.
    rewrite A, B, C. cbn [p_twinned p_rot p_rot0]. repeat split; reflexivity.
  - assert (Hno : ~ over thr (s :: ss) (fun i => p_slip st (k + i)%nat) 0) by (apply Hf; lia).
    assert (HFO : first_over thr ss (fun i => p_slip st (S k + i)%nat) j).
    { split; [rewrite <- Eq; exact (proj1 (over_shift _ _ _ _ _) Ho)|]. intros i Hi C. apply (Hf (S i)); [lia|]. apply over_shift. rewrite Eq. exact C. }
    change (turn_of (s :: ss) (S j)) with (turn_of ss j).
    destruct (p_twin s) eqn:T; [|apply IH; assumption].
    destruct (Rlt_dec thr (p_slip st k / p_shear s)) as [L|L].
    + exfalso. apply Hno. split; [exists s; split; [reflexivity|exact T]|]. unfold frac. cbn [nth_error]. rewrite Nat.add_0_r. exact L.
    + match goal with |- context [ptr_scan thr (S k) ss ?x] => destruct (IH (S k) x j Ht HFO) as (A & B & C) end. rewrite A, B, C. cbn [p_twinned p_rot p_rot0]. repeat split; reflexivity.
Qed.
Lemma clear_value : forall ss k f,
  (forall j, twin_at ss j -> ptr_clear k ss f (k + j)%nat = 0) /\ (forall j, (j < k)%nat -> ptr_clear k ss f j = f j) /\ (forall j, ~ twin_at ss j -> ptr_clear k ss f (k + j)%nat = f (k + j)%nat).
Proof.
  induction ss as [|s ss IH]; intros k f; cbn [ptr_clear].
  - split; [intros j (s & E & _); destruct j; discriminate|]. split; reflexivity.
  - destruct (IH (S k) (if p_twin s then upd f k 0 else f)) as (H1 & H2 & H3). split; [|split].
    + intros [|j] Hj.
      * rewrite Nat.add_0_r, H2 by lia. destruct Hj as (s' & E & T). cbn in E. injection E as <-. rewrite T. unfold upd. rewrite Nat.eqb_refl. reflexivity.
      * replace (k + S j)%nat with (S k + j)%nat by lia. apply H1. exact Hj.
    + intros j Hj. rewrite H2 by lia. destruct (p_twin s); [|reflexivity]. unfold upd. rewrite (proj2 (Nat.eqb_neq j k)) by lia. reflexivity.
    + intros [|j] Hj.
      * rewrite Nat.add_0_r, H2 by lia. destruct (p_twin s) eqn:T; [|reflexivity]. exfalso. apply Hj. exists s. split; [reflexivity|exact T].
      * replace (k + S j)%nat with (S k + j)%nat by lia. rewrite H3 by exact Hj. destruct (p_twin s); [|reflexivity]. unfold upd. rewrite (proj2 (Nat.eqb_neq _ k)) by lia. reflexivity.
Qed.
Lemma ptr_none thr ss st prev : p_twinned prev = 0 -> (forall j, ~ over thr ss (p_slip st) j) ->
  let r := ptr_act thr ss st prev in p_rot r = p_rot st /\ p_rot0 r = p_rot0 st /\ p_slip r = p_slip st.
Proof.
  intros H0 Hn. cbv zeta. unfold ptr_act. destruct (Rlt_dec (p_twinned prev) (1 / 2)) as [_|C]; [|lra].
  match goal with |- context [ptr_scan thr 0 ss ?x] => destruct (scan_none thr ss 0 x Hn) as (A & B & C) end. rewrite A. cbn [p_twinned].
  destruct (Rlt_dec (1 / 2) (p_twinned prev)) as [L|_]; [lra|]. rewrite B, C, scan_slip. repeat split; reflexivity.
Qed.
Lemma ptr_turns thr ss st prev j : p_twinned prev = 0 -> first_over thr ss (p_slip st) j ->
  let r := ptr_act thr ss st prev in p_rot r = qmul (turn_of ss j) (p_rot st) /\ p_rot0 r = p_rot r /\
    (forall i, twin_at ss i -> p_slip r i = 0) /\ (forall i, ~ twin_at ss i -> p_slip r i = p_slip st i).
Proof.
  intros H0 Hf. cbv zeta. unfold ptr_act. destruct (Rlt_dec (p_twinned prev) (1 / 2)) as [Lt|C]; [|lra].
  match goal with |- context [ptr_scan thr 0 ss ?x] => destruct (scan_first thr ss 0 x j Lt Hf) as (A & B & C); set (st1 := ptr_scan thr 0 ss x) in * end.
  rewrite A. destruct (Rlt_dec (1 / 2) 1) as [_|L]; [|lra]. cbn [p_rot p_rot0 p_slip]. rewrite B, C. split; [reflexivity|]. split; [reflexivity|].
  destruct (clear_value ss 0 (p_slip st1)) as (D1 & _ & D3). split; [intros i Hi; apply D1; exact Hi|]. intros i Hi. transitivity (p_slip st1 i); [apply D3; exact Hi|].
  unfold st1. rewrite scan_slip. reflexivity.
Qed.
Lemma ptr_fractions thr ss st prev : p_twinned prev = 0 -> let r := ptr_act thr ss st prev in
  (forall j, twin_at ss j -> p_frac r j = frac ss (p_slip st) j) /\ (forall j, ~ twin_at ss j -> p_frac r j = p_frac st j) /\ p_twinned r = 0.
Proof.
  intros H0. cbv zeta. unfold ptr_act. destruct (Rlt_dec (p_twinned prev) (1 / 2)) as [Lt|C]; [|lra].
  match goal with |- context [ptr_scan thr 0 ss ?x] => destruct (scan_frac thr ss 0 x) as (A & _ & C); pose proof (scan_none thr ss 0 x) as SN; pose proof (scan_first thr ss 0 x) as SF; set (st1 := ptr_scan thr 0 ss x) in * end.
  cbn [p_slip p_frac p_twinned] in *.
  assert (Tw : p_twinned st1 = 0 \/ p_twinned st1 = 1).
  { assert (Ex : (exists j, first_over thr ss (p_slip st) j) \/ forall j, ~ over thr ss (p_slip st) j).
    { assert (Ln : forall n, (exists j, first_over thr ss (p_slip st) j) \/ forall j, (j < n)%nat -> ~ over thr ss (p_slip st) j).
      { induction n as [|n [IH|IH]]; [right; intros; lia|left; exact IH|]. destruct (over_dec thr ss (p_slip st) n) as [Y|N].
        - left. exists n. split; [exact Y|exact IH].
        - right. intros j Hj. destruct (Nat.eq_dec j n) as [->|]; [exact N|apply IH; lia]. }
      destruct (Ln (length ss)) as [E|E]; [left; exact E|]. right. intros j. destruct (Nat.lt_ge_cases j (length ss)) as [L|G]; [apply E; exact L|].
      intros [(s & Es & _) _]. apply nth_error_None in G. congruence. }
    destruct Ex as [(j & Hj)|Hn]; [right; apply (SF j Lt Hj)|left]. destruct (SN Hn) as (E & _). rewrite E. exact H0. }
  destruct (Rlt_dec (1 / 2) (p_twinned st1)) as [L|L]; cbn [p_frac p_twinned]; (split; [intros j Hj; apply (A j Hj)|split; [intros j Hj; apply (C j Hj)|]]); [reflexivity|].
  destruct Tw as [E|E]; [exact E|lra].
Qed.
Lemma ptr_flag ss prev calls : p_twinned prev = 0 -> p_twinned (ptr_run ss prev calls) = 0.
Proof.
  revert prev. induction calls as [|[thr st] calls IH]; intros prev H; [exact H|]. cbn [ptr_run]. apply IH. apply (proj2 (proj2 (ptr_fractions thr ss st prev H))).
Qed.
Lemma ptr_unit thr ss st prev : p_twinned prev = 0 -> (forall s, In s ss -> unitq (p_turn s)) -> unitq (p_rot st) -> unitq (p_rot (ptr_act thr ss st prev)).
Proof.
  intros H0 Hs Hq.
  assert (Ex : (exists j, first_over thr ss (p_slip st) j) \/ forall j, ~ over thr ss (p_slip st) j).
  { assert (Ln : forall n, (exists j, first_over thr ss (p_slip st) j) \/ forall j, (j < n)%nat -> ~ over thr ss (p_slip st) j).
    { induction n as [|n [IH|IH]]; [right; intros; lia|left; exact IH|]. destruct (over_dec thr ss (p_slip st) n) as [Y|N].
      - left. exists n. split; [exact Y|exact IH].
      - right. intros j Hj. destruct (Nat.eq_dec j n) as [->|]; [exact N|apply IH; lia]. }
    destruct (Ln (length ss)) as [E|E]; [left; exact E|]. right. intros j. destruct (Nat.lt_ge_cases j (length ss)) as [L|G]; [apply E; exact L|].
    intros [(s & Es & _) _]. apply nth_error_None in G. congruence. }
  destruct Ex as [(j & Hj)|Hn].
  - rewrite (proj1 (ptr_turns thr ss st prev j H0 Hj)). destruct Hj as [[(s & E & _) _] _]. unfold turn_of. rewrite E.
    assert (Hu : unitq (p_turn s)) by (apply Hs; apply (nth_error_In _ _ E)). destruct (p_turn s) as [a b c d]. destruct (p_rot st) as [e f g k]. unfold unitq, qmul in *. cbn [q0 q1 q2 q3] in *.
    transitivity ((a * a + b * b + c * c + d * d) * (e * e + f * f + g * g + k * k)); [ring|]. rewrite Hu, Hq. ring.
  - rewrite (proj1 (ptr_none thr ss st prev H0 Hn)). exact Hq.
Qed.
