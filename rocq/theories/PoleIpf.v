(** Proofs about inverse pole figures and the cubic triangle (neml/cp/polefigures.py). *)
From Coq Require Import String ZArith.
From Verif Require Import Base.
From Verif Require Import Diff.
From Verif Require Import NemlMathModel NemlMathSpec RotModel RotSpec RotProofs RotMatrix RotConv RotMore.
From Verif Require Import CrystModel CrystSpec CrystProofs CrystLattice.
From Verif Require Import PoleModel PoleSpec PoleProofs PoleFig.
From Coq Require Import Psatz FunctionalExtensionality.

Lemma delta_cases : forall k (f : nat -> Prop), (k < 3)%nat -> f 0%nat -> f 1%nat -> f 2%nat -> f k.
Proof. intros [|[|[|k]]] f H; auto; lia. Qed.
Lemma ortho_comps : forall S v, In S (slice 0 4 tetragonal) -> In (comps (apply_v S v)) (orthoT (v 0%nat) (v 1%nat) (v 2%nat)).
Proof. intros S v H. rewrite <- ortho_images. apply in_map_iff. exists S; auto. Qed.
Lemma cubic_comps : forall S v, In S cubic -> In (comps (apply_v S v)) (cubicT (v 0%nat) (v 1%nat) (v 2%nat)).
Proof. intros S v H. rewrite <- cubic_images. apply in_map_iff. exists S; auto. Qed.
Lemma comps3 : forall (u : vec) a b c, comps u = (a, b, c) -> u 0%nat = a /\ u 1%nat = b /\ u 2%nat = c.
Proof.
  intros u a b c E. pose proof (f_equal (fun t => fst (fst t)) E) as E0. pose proof (f_equal (fun t => snd (fst t)) E) as E1. pose proof (f_equal snd E) as E2. auto.
Qed.
Lemma group_identity : forall l, rot_group l -> exists e, In e l /\ forall v, veq 3 (apply_v e v) v.
Proof.
  intros l (U & (e & He & Te) & _). exists e. split; [exact He|]. intros v. eapply veq3_trans; [apply apply_turn; [exact Te|apply U; exact He|apply unitq_one]|]. apply apply_one.
Qed.
(** ** The sample symmetry of a pole figure *)
Definition q34 : quat := Quat (3 / 5) 0 0 (4 / 5).
Lemma q34_unit : unitq q34. Proof. unfold unitq, q34; cbn [q0 q1 q2 q3]; field. Qed.
Lemma q34_back : forall v, veq 3 (apply_v (oinv q34) v) (v3 (- 7 / 25 * v 0%nat + 24 / 25 * v 1%nat) (- 24 / 25 * v 0%nat - 7 / 25 * v 1%nat) (v 2%nat)).
Proof. intros v. apply veq3; unfold apply_v, oinv, q34, qmul, qconj, v3; cbn [q0 q1 q2 q3]; field. Qed.
Lemma e1_norm : veq 3 (normalized (v3 1 0 0)) (v3 1 0 0).
Proof.
  assert (U : unit_vec (v3 1 0 0)) by (unfold unit_vec; rewrite ndot3; cbn; ring). intros i _. unfold normalized. rewrite norm3_unit by exact U. field.
Qed.
Lemma identity_axes : exists srot, setVectors (v3 1 0 0) (v3 0 1 0) = Some srot /\ unitq srot /\ forall v, veq 3 (apply_v srot v) v.
Proof.
  assert (X : unit_vec (v3 1 0 0)) by (unfold unit_vec; rewrite ndot3; cbn; ring). assert (Y : unit_vec (v3 0 1 0)) by (unfold unit_vec; rewrite ndot3; cbn; ring).
  assert (O : ndot (v3 1 0 0) (v3 0 1 0) = 0) by (rewrite ndot3; cbn; ring). destruct (axes_apply _ _ (v3 0 0 0) X Y O) as (s & E & U & _).
  exists s. split; [exact E|]. split; [exact U|]. intros v. destruct (axes_apply _ _ v X Y O) as (s' & E' & _ & M). rewrite E in E'; injection E' as <-.
  intros k Hk. rewrite (M k Hk). destruct k as [|[|[|k]]]; try lia; cbn; ring.
Qed.
(** every point of the figure of [100] for the crystal turned by q34 *)
Lemma q34_points : forall srot w, (forall v, veq 3 (apply_v srot v) v) ->
  listed w (pole_points [q34] srot cubic (slice 0 4 tetragonal) (v3 1 0 0)) ->
  exists s, (s = 1 \/ s = -1) /\
    (veq 3 w (v3 (s * (- 7 / 25)) (s * (- 24 / 25)) 0) \/ veq 3 w (v3 (s * (24 / 25)) (s * (- 7 / 25)) 0) \/ veq 3 w (v3 0 0 s)).
Proof.
  intros srot w Id (u & I & E). apply pole_points_In in I as (x & S & o & Hx & HS & Ho & ->). destruct Ho as [<-|[]].
  destruct (equivalent_ok cubic (v3 1 0 0)) as (A & _). destruct (A x Hx) as (R & HR & ->). clear A Hx.
  destruct (axis_images R HR) as (s & Hs & k & Hk & M).
  assert (UR : unitq R) by (destruct (symmetry_group _ _ cubic_class) as (U & _); auto).
  assert (N1 : ndot (v3 1 0 0) (v3 1 0 0) <> 0) by (rewrite ndot3; cbn; lra).
  assert (EN : veq 3 (normalized (apply_v R (v3 1 0 0))) (apply_v R (v3 1 0 0))).
  { eapply veq3_trans; [apply normalized_image; auto|]. apply apply_v_ext, e1_norm. }
  set (n := normalized (apply_v R (v3 1 0 0))) in *. clearbody n.
  assert (N : forall i, (i < 3)%nat -> n i = s * delta i k) by (intros i Hi; rewrite (EN i Hi); auto). clear EN M.
  pose proof (ortho_comps S n HS) as O. rewrite !N in O by lia.
  assert (W : veq 3 w (v3 (- 7 / 25 * apply_v S n 0%nat + 24 / 25 * apply_v S n 1%nat) (- 24 / 25 * apply_v S n 0%nat - 7 / 25 * apply_v S n 1%nat) (apply_v S n 2%nat))).
  { eapply veq3_trans; [apply veq3_sym; exact E|]. eapply veq3_trans; [apply Id|]. apply q34_back. }
  clear E N Id. assert (W0 := W 0%nat ltac:(lia)). assert (W1 := W 1%nat ltac:(lia)). assert (W2 := W 2%nat ltac:(lia)). cbn [v3] in W0, W1, W2. clear W.
  assert (G : forall a b c, comps (apply_v S n) = (a, b, c) ->
     (exists s', (s' = 1 \/ s' = -1) /\ ((a = s' /\ b = 0 /\ c = 0) \/ (a = 0 /\ b = s' /\ c = 0) \/ (a = 0 /\ b = 0 /\ c = s'))) ->
     exists s', (s' = 1 \/ s' = -1) /\
    (veq 3 w (v3 (s' * (- 7 / 25)) (s' * (- 24 / 25)) 0) \/ veq 3 w (v3 (s' * (24 / 25)) (s' * (- 7 / 25)) 0) \/ veq 3 w (v3 0 0 s'))).
  { intros a b c C (s' & Hs' & D). apply comps3 in C as (C0 & C1 & C2). rewrite C0, C1 in W0, W1. rewrite C2 in W2. exists s'. split; [exact Hs'|].
    destruct D as [(-> & -> & ->)|[(-> & -> & ->)|(-> & -> & ->)]]; [left|right; left|right; right]; apply veq3; cbn [v3]; lra. }
  unfold orthoT in O. cbn [In] in O. clear W0 W1 W2.
  destruct O as [O|[O|[O|[O|[]]]]]; symmetry in O; apply (G _ _ _ O); revert Hk; destruct k as [|[|[|k]]]; intros Hk; try lia; unfold delta; cbn [Nat.eqb].
  all: destruct Hs as [-> | ->].
  all: first [exists 1; split; [tauto|]; first [left; repeat split; ring|right; left; repeat split; ring|right; right; repeat split; ring]
             |exists (-1); split; [tauto|]; first [left; repeat split; ring|right; left; repeat split; ring|right; right; repeat split; ring]].
Qed.
Lemma sample_symmetry_refuted : exists srot S w, setVectors (v3 1 0 0) (v3 0 1 0) = Some srot /\ In S (slice 0 4 tetragonal) /\
  listed w (pole_points [q34] srot cubic (slice 0 4 tetragonal) (v3 1 0 0)) /\ 0 <= w 2%nat /\ 0 <= apply_v S w 2%nat /\
  ~ listed (apply_v S w) (pole_points [q34] srot cubic (slice 0 4 tetragonal) (v3 1 0 0)).
Proof.
  destruct identity_axes as (srot & E & U & Id).
  set (w := v3 (- 7 / 25) (- 24 / 25) 0).
  assert (L : listed w (pole_points [q34] srot cubic (slice 0 4 tetragonal) (v3 1 0 0))).
  { destruct (equivalent_ok cubic (v3 1 0 0)) as (A & B & _).
    destruct (group_identity _ (symmetry_group _ _ cubic_class)) as (e & He & Ie). destruct (group_identity _ (symmetry_group _ _ ortho_class)) as (f & Hf & If).
    destruct (B e He) as (x & Hx & Nx). destruct (A x Hx) as (R & HR & EX).
    assert (Ev : veq 3 (apply_v e (v3 1 0 0)) (v3 1 0 0)) by apply Ie.
    assert (X1 : veq 3 x (v3 1 0 0)).
    { destruct (axis_images R HR) as (s & Hs & k & Hk & M). pose proof (Nx 0%nat ltac:(lia)) as N0. rewrite (Ev 0%nat) in N0 by lia. subst x. rewrite (M 0%nat) in N0 by lia.
      revert N0 M. destruct k as [|[|[|k]]]; try lia; unfold delta at 1; cbn [Nat.eqb v3]; intros N0 M;
      destruct Hs as [-> | ->]; try (exfalso; revert N0; rewrite !Rabs_R1; unfold Rabs; destruct (Rcase_abs _); lra).
      intros i Hi. rewrite (M i Hi). destruct i as [|[|[|i]]]; try lia; unfold delta; cbn; ring. }
    exists (apply_v srot (apply_v (oinv q34) (apply_v f (normalized x)))). split.
    - apply pole_points_In. exists x, f, q34. split; [exact Hx|]. split; [exact Hf|]. split; [left; reflexivity|reflexivity].
    - eapply veq3_trans; [apply Id|]. eapply veq3_trans; [apply q34_back|].
      assert (F : veq 3 (apply_v f (normalized x)) (v3 1 0 0)).
      { eapply veq3_trans; [apply If|]. eapply veq3_trans; [apply normalized_ext; exact X1|]. apply e1_norm. }
      apply veq3; unfold w; cbn [v3]; rewrite ?(F 0%nat), ?(F 1%nat), ?(F 2%nat) by lia; cbn [v3]; field. }
  assert (HS : exists S, In S (slice 0 4 tetragonal) /\ comps (apply_v S w) = (- 7 / 25, 24 / 25, 0)).
  { pose proof (ortho_images w) as M. assert (I : In (w 0%nat, - w 1%nat, - w 2%nat) (orthoT (w 0%nat) (w 1%nat) (w 2%nat))) by (right; right; left; reflexivity).
    rewrite <- M in I. apply in_map_iff in I as (S & ES & IS). exists S. split; [exact IS|]. rewrite ES. unfold w; cbn [v3]. f_equal; [f_equal|]; field. }
  destruct HS as (S & HS & C). apply comps3 in C as (C0 & C1 & C2).
  exists srot, S, w. split; [exact E|]. split; [exact HS|]. split; [exact L|]. split; [unfold w; cbn; lra|]. split; [rewrite C2; lra|].
  intros K. destruct (q34_points srot _ Id K) as (s & Hs & D).
  destruct D as [D|[D|D]]; pose proof (D 0%nat ltac:(lia)) as D0; pose proof (D 1%nat ltac:(lia)) as D1; cbn [v3] in D0, D1; rewrite C0 in D0; rewrite C1 in D1; destruct Hs as [-> | ->]; lra.
Qed.

(** ** Points of the inverse figure *)
Lemma ipf_sphere_In : forall tr q ops ssym d w, In w (ipf_sphere tr q ops ssym d) <->
  exists S R, In S ssym /\ In R ops /\ w = apply_v tr (apply_v R (apply_v q (apply_v S (normalized d)))).
Proof.
  intros. unfold ipf_sphere. rewrite in_flat_map. split.
  - intros (S & HS & H). apply in_map_iff in H as (R & <- & HR). exists S, R; auto.
  - intros (S & R & HS & HR & ->). exists S. split; [auto|]. apply in_map_iff. exists R; auto.
Qed.
Lemma ipf_listed : forall tr q ops ssym d w, listed w (above (ipf_sphere tr q ops ssym d)) <->
  0 < w 2%nat /\ exists S R, In S ssym /\ In R ops /\ veq 3 w (apply_v tr (apply_v R (apply_v q (apply_v S (normalized d))))).
Proof.
  intros. split.
  - intros (u & I & E). apply above_In in I as [I P]. apply ipf_sphere_In in I as (S & R & HS & HR & ->). split; [rewrite <- (E 2%nat) by lia; exact P|].
    exists S, R. split; [auto|]. split; [auto|]. apply veq3_sym; exact E.
  - intros (P & S & R & HS & HR & E). exists (apply_v tr (apply_v R (apply_v q (apply_v S (normalized d))))). split; [|apply veq3_sym; exact E].
    apply above_In. split; [apply ipf_sphere_In; exists S, R; auto|]. rewrite <- (E 2%nat) by lia. exact P.
Qed.
Lemma axes_matrix : forall xv yv, unit_vec xv -> unit_vec yv -> ndot xv yv = 0 ->
  let M := fun k : nat => match k with
        | 0%nat => xv 0%nat | 1%nat => xv 1%nat | 2%nat => xv 2%nat
        | 3%nat => yv 0%nat | 4%nat => yv 1%nat | 5%nat => yv 2%nat
        | 6%nat => cross3 xv yv 0%nat | 7%nat => cross3 xv yv 1%nat | _ => cross3 xv yv 2%nat end in
  is_rot (t2 M).
Proof.
  intros xv yv X Y O M. unfold unit_vec in *. rewrite ndot3 in *. unfold is_rot.
  set (a := xv 0%nat) in *; set (b := xv 1%nat) in *; set (c := xv 2%nat) in *; set (d := yv 0%nat) in *; set (e := yv 1%nat) in *; set (f := yv 2%nat) in *.
  assert (Z : (b * f - c * e) * (b * f - c * e) + (c * d - a * f) * (c * d - a * f) + (a * e - b * d) * (a * e - b * d) = 1).
  { transitivity ((a * a + b * b + c * c) * (d * d + e * e + f * f) - (a * d + b * e + c * f) * (a * d + b * e + c * f)); [ring|]. rewrite X, Y, O; ring. }
  split.
  - intros i j Hi Hj. unfold t2, M, cross3. fold a b c d e f. cbn [rsum].
    destruct i as [|[|[|i]]]; try lia; destruct j as [|[|[|j]]]; try lia; unfold delta; cbn -[Rmult Rplus Rminus]; fold a b c d e f; try lra; ring.
  - unfold det3, t2, M, cross3. cbn -[Rmult Rplus Rminus]. fold a b c d e f. rewrite <- Z. ring.
Qed.
Lemma ipf_axes_ok : forall m2d x y x' y', m2d x = Some x' -> m2d y = Some y' -> ndot x' x' <> 0 -> ndot y' y' <> 0 -> ndot x' y' = 0 ->
  exists tr, ipf_axes m2d x y = Some tr /\ unitq tr /\
    forall v, apply_v tr v 0%nat = ndot (normalized x') v /\ apply_v tr v 1%nat = ndot (normalized y') v /\
              apply_v tr v 2%nat = ndot (ncross (normalized x') (normalized y')) v.
Proof.
  intros m2d x y x' y' EX EY NX NY O. unfold ipf_axes. rewrite EX, EY.
  assert (D : ndot (normalized x') (normalized y') = 0).
  { rewrite ndot_normalized by auto. rewrite O. unfold Rdiv; ring. }
  rewrite dot3_ndot, D, Rabs_R0. destruct (Rle_dec 0 1e-8) as [_|n]; [|exfalso; lra].
  pose proof (axes_matrix _ _ (normalized_unit x' NX) (normalized_unit y' NY) D) as G. cbv zeta in G.
  destruct (setMatrix_rot _ G) as (U & M). eexists. split; [reflexivity|]. split; [exact U|].
  intros v. rewrite !apply_v_matrix by auto. unfold mv3. cbn [rsum]. rewrite !M by lia. unfold t2. cbn [Nat.mul Nat.add]. rewrite !ndot3. unfold cross3, ncross. repeat split; ring.
Qed.
Lemma project_ipf_rejects : forall m2d ops q d ssym x y x' y', m2d x = Some x' -> m2d y = Some y' -> ndot x' x' <> 0 -> ndot y' y' <> 0 ->
  (project_ipf m2d ops q d ssym x y = None <-> 1e-8 * (norm3 x' * norm3 y') < Rabs (ndot x' y')).
Proof.
  intros m2d ops q d ssym x y x' y' EX EY NX NY. unfold project_ipf, ipf_axes. rewrite EX, EY. rewrite dot3_ndot, ndot_normalized by auto.
  pose proof (norm3_pos x' NX) as PX. pose proof (norm3_pos y' NY) as PY. assert (P : 0 < norm3 x' * norm3 y') by (apply Rmult_lt_0_compat; auto).
  set (n := norm3 x' * norm3 y') in *. assert (E : Rabs (ndot x' y') = Rabs (ndot x' y' / n) * n).
  { unfold Rdiv. rewrite Rabs_mult, (Rabs_right (/ n)) by (apply Rle_ge, Rlt_le, Rinv_0_lt_compat; auto). field. lra. }
  destruct (Rle_dec _ _) as [L|L]; split; intros H; try discriminate; auto.
  - exfalso. rewrite E in H. apply Rmult_lt_reg_r in H; lra.
  - rewrite E. apply Rmult_lt_compat_r; [auto|lra].
Qed.
Lemma project_ipf_unit : forall m2d ops q d ssym x y x' y' pts w, m2d x = Some x' -> m2d y = Some y' -> ndot x' x' <> 0 -> ndot y' y' <> 0 -> ndot x' y' = 0 ->
  (forall R, In R ops -> unitq R) -> (forall S, In S ssym -> unitq S) -> unitq q -> ndot d d <> 0 ->
  project_ipf m2d ops q d ssym x y = Some pts -> In w pts -> unit_vec w /\ 0 < w 2%nat.
Proof.
  intros m2d ops q d ssym x y x' y' pts w EX EY NX NY O UR US UQ ND H I.
  destruct (ipf_axes_ok m2d x y x' y' EX EY NX NY O) as (tr & ET & UT & _). unfold project_ipf in H. rewrite ET in H. injection H as <-.
  apply above_In in I as [I P]. split; [|exact P]. apply ipf_sphere_In in I as (S & R & HS & HR & ->).
  repeat (apply apply_v_unit; auto). apply normalized_unit; auto.
Qed.
(** components along the chosen lattice directions *)
Lemma project_ipf_listed : forall m2d ops q d ssym x y x' y', m2d x = Some x' -> m2d y = Some y' -> ndot x' x' <> 0 -> ndot y' y' <> 0 -> ndot x' y' = 0 ->
  exists pts, project_ipf m2d ops q d ssym x y = Some pts /\ forall w, listed w pts <->
    0 < w 2%nat /\ exists S R, In S ssym /\ In R ops /\ let c := apply_v R (apply_v q (apply_v S (normalized d))) in
      w 0%nat = ndot (normalized x') c /\ w 1%nat = ndot (normalized y') c /\ w 2%nat = ndot (ncross (normalized x') (normalized y')) c.
Proof.
  intros m2d ops q d ssym x y x' y' EX EY NX NY O. destruct (ipf_axes_ok m2d x y x' y' EX EY NX NY O) as (tr & ET & UT & M).
  unfold project_ipf. rewrite ET. eexists. split; [reflexivity|]. intros w. rewrite ipf_listed. split; intros (P & S & R & HS & HR & E); (split; [exact P|]); exists S, R; (split; [exact HS|]); (split; [exact HR|]).
  - destruct (M (apply_v R (apply_v q (apply_v S (normalized d))))) as (A & B & C). cbv zeta. rewrite (E 0%nat), (E 1%nat), (E 2%nat) by lia. auto.
  - destruct (M (apply_v R (apply_v q (apply_v S (normalized d))))) as (A & B & C). cbv zeta in E. destruct E as (E0 & E1 & E2). apply veq3; congruence.
Qed.
Lemma ipf_crystal : forall tr q ops ssym d R, rot_group ops -> unitq q -> In R ops ->
  same_points (above (ipf_sphere tr (qmul R q) ops ssym d)) (above (ipf_sphere tr q ops ssym d)).
Proof.
  intros tr q ops ssym d R (U & _ & M & I & _) Q HR w. rewrite !ipf_listed. split; intros (P & S & T & HS & HT & E); (split; [exact P|]).
  - destruct (M T R HT HR) as (T' & HT' & TT). exists S, T'. split; [auto|]. split; [auto|]. eapply veq3_trans; [exact E|]. apply apply_v_ext. apply veq3_sym.
    eapply veq3_trans; [apply apply_turn; [exact TT|auto|apply unitq_mul; auto]|]. eapply veq3_trans; [apply apply_mul3|].
    apply apply_v_ext. apply veq3_sym, apply_mul3.
  - destruct (I R HR) as (R' & HR' & TR'). destruct (M T R' HT HR') as (T' & HT' & TT). exists S, T'. split; [auto|]. split; [auto|]. eapply veq3_trans; [exact E|].
    apply apply_v_ext. apply veq3_sym. eapply veq3_trans; [apply apply_v_ext, apply_mul3|].
    eapply veq3_trans; [apply apply_turn; [exact TT|auto|apply unitq_mul; auto]|]. eapply veq3_trans; [apply apply_mul3|]. apply apply_v_ext.
    eapply veq3_trans; [apply apply_turn; [exact TR'|auto|apply unitq_conj; auto]|]. intros i Hi. apply apply_v_inv; auto.
Qed.
Lemma ipf_sample : forall tr q ops ssym d S, rot_group ssym -> unitq q -> In S ssym ->
  same_points (above (ipf_sphere tr (qmul q S) ops ssym d)) (above (ipf_sphere tr q ops ssym d)).
Proof.
  intros tr q ops ssym d S (U & _ & M & I & _) Q HS w. rewrite !ipf_listed. split; intros (P & T & R & HT & HR & E); (split; [exact P|]).
  - destruct (M S T HS HT) as (T' & HT' & TT). exists T', R. split; [auto|]. split; [auto|]. eapply veq3_trans; [exact E|]. do 2 apply apply_v_ext. apply veq3_sym.
    eapply veq3_trans; [apply apply_v_ext, apply_turn; [exact TT|auto|apply unitq_mul; auto]|]. eapply veq3_trans; [apply apply_v_ext, apply_mul3|].
    apply veq3_sym, apply_mul3.
  - destruct (I S HS) as (S' & HS' & TS'). destruct (M S' T HS' HT) as (T' & HT' & TT). exists T', R. split; [auto|]. split; [auto|]. eapply veq3_trans; [exact E|].
    do 2 apply apply_v_ext. apply veq3_sym. eapply veq3_trans; [apply apply_mul3|]. apply apply_v_ext.
    eapply veq3_trans; [apply apply_v_ext, apply_turn; [exact TT|auto|apply unitq_mul; auto]|]. eapply veq3_trans; [apply apply_v_ext, apply_mul3|].
    eapply veq3_trans; [apply apply_v_ext, apply_turn; [exact TS'|auto|apply unitq_conj; auto]|].
    assert (US : unitq (qconj S)) by (apply unitq_conj; auto). intros i Hi. replace S with (oinv (qconj S)) at 1 by (destruct S; unfold oinv, qconj; cbn; f_equal; ring). apply apply_v_inv; auto.
Qed.
Lemma project_ipf_symmetry : forall m2d ops q d ssym x y R S, rot_group ops -> rot_group ssym -> unitq q -> In R ops -> In S ssym ->
  match project_ipf m2d ops (qmul R (qmul q S)) d ssym x y, project_ipf m2d ops q d ssym x y with
  | Some a, Some b => same_points a b
  | None, None => True
  | _, _ => False
  end.
Proof.
  intros m2d ops q d ssym x y R S GR GS Q HR HS. unfold project_ipf. destruct (ipf_axes m2d x y) as [tr|]; [|exact I].
  assert (US : unitq S) by (destruct GS as (U & _); auto).
  intros w. rewrite (ipf_crystal tr (qmul q S) ops ssym d R GR ltac:(apply unitq_mul; auto) HR w). apply ipf_sample; auto.
Qed.
(** the inverse figure shows where the pole figure puts the direction: without sample symmetry the crystal direction p is drawn at the
    sample direction d exactly if d is drawn at p *)
Lemma duality : forall o ops p d, rot_group ops -> unitq o -> ndot p p <> 0 -> ndot d d <> 0 -> images_apart ops p ->
  (listed (normalized d) (pole_points [o] qone ops [qone] p) <-> listed (normalized p) (ipf_sphere qone o ops [qone] d)).
Proof.
  intros o ops p d G O NP ND X. pose proof G as (U & _ & _ & I & _).
  rewrite pole_contained; [|exact G|apply rot_group_one|intros S [<-|[]]; destruct G as (_ & (e & He & Te) & _); exists e; auto|exact NP|exact X].
  assert (LI : listed (normalized p) (ipf_sphere qone o ops [qone] d) <-> exists R, In R ops /\ veq 3 (normalized p) (apply_v R (apply_v o (normalized d)))).
  { split.
    - intros (u & Iu & E). apply ipf_sphere_In in Iu as (S & R & [<-|[]] & HR & ->). exists R. split; [auto|]. apply veq3_sym. eapply veq3_trans; [|exact E].
      apply veq3_sym. eapply veq3_trans; [apply apply_one|]. do 2 apply apply_v_ext. apply apply_one.
    - intros (R & HR & E). eexists. split; [apply ipf_sphere_In; exists qone, R; split; [left; reflexivity|]; split; [exact HR|reflexivity]|].
      eapply veq3_trans; [apply apply_one|]. apply veq3_sym. eapply veq3_trans; [exact E|]. do 2 apply apply_v_ext. apply veq3_sym, apply_one. }
  rewrite LI. clear LI. split.
  - intros (R & o' & HR & [<-|[]] & E). destruct (I R HR) as (R' & HR' & T). exists R'. split; [auto|]. apply veq3_sym.
    eapply veq3_trans; [do 2 apply apply_v_ext; exact E|]. eapply veq3_trans; [do 2 apply apply_v_ext; apply apply_one|].
    eapply veq3_trans; [apply apply_v_ext|].
    { assert (UO : unitq (oinv o)) by (apply unitq_conj; auto). intros i Hi. replace o with (oinv (oinv o)) at 1 by (destruct o; unfold oinv, qconj; cbn; f_equal; ring). apply apply_v_inv; [exact UO|exact Hi]. }
    eapply veq3_trans; [apply apply_turn; [exact T|auto|apply unitq_conj; auto]|]. intros i Hi. apply apply_v_inv; auto.
  - intros (R & HR & E). destruct (I R HR) as (R' & HR' & T). exists R', o. split; [auto|]. split; [left; reflexivity|]. apply veq3_sym.
    eapply veq3_trans; [apply apply_one|]. eapply veq3_trans; [do 2 apply apply_v_ext; exact E|].
    eapply veq3_trans; [apply apply_v_ext|].
    { eapply veq3_trans; [apply apply_turn; [exact T|auto|apply unitq_conj; auto]|]. intros i Hi. apply apply_v_inv; auto. }
    intros i Hi. apply apply_v_inv; auto.
Qed.
(** ** The cubic triangle *)
Definition wedge (t : R * R * R) : Prop := let '(x, y, z) := t in 0 <= y /\ y <= x /\ x <= z /\ 0 < z.
Lemma wedge_cone : forall p, (in_cone (v3 0 0 1) (v3 1 0 1) (v3 1 1 1) p /\ 0 < p 2%nat) <-> wedge (comps p).
Proof.
  intros p. unfold wedge, comps. split.
  - intros [(a & b & c & A & B & C & E) P]. pose proof (E 0%nat ltac:(lia)) as E0. pose proof (E 1%nat ltac:(lia)) as E1. pose proof (E 2%nat ltac:(lia)) as E2. cbn [v3] in *. lra.
  - intros (A & B & C & D). split; [|lra]. exists (p 2%nat - p 0%nat), (p 0%nat - p 1%nat), (p 1%nat). repeat split; try lra.
    intros [|[|[|k]]] Hk; try lia; cbn [v3]; ring.
Qed.
Lemma cubic_triple : triple (v3 0 0 1) (v3 1 0 1) (v3 1 1 1) = 1.
Proof. unfold triple. rewrite ndot3. cbn. ring. Qed.
Lemma cubic_reduce : forall pts p, In p (fst (reduce_points_triangle pts cubic_triangle)) /\ 0 < p 2%nat <-> In p pts /\ wedge (comps p).
Proof.
  intros pts p. unfold cubic_triangle. rewrite reduce_ok by (rewrite cubic_triple; lra). rewrite <- wedge_cone. tauto.
Qed.
Lemma six_orders : forall a b c : R, (a <= b /\ b <= c) \/ (a <= c /\ c <= b) \/ (b <= a /\ a <= c) \/ (b <= c /\ c <= a) \/ (c <= a /\ a <= b) \/ (c <= b /\ b <= a).
Proof. intros. destruct (Rle_lt_dec a b), (Rle_lt_dec b c), (Rle_lt_dec a c); try tauto; lra. Qed.
Ltac pick i := exists i; split; [lia|]; cbn [nth cubicT]; unfold wedge; repeat split; lra.
Ltac pick_all := first [pick 0%nat|pick 1%nat|pick 2%nat|pick 3%nat|pick 4%nat|pick 5%nat|pick 6%nat|pick 7%nat|pick 8%nat|pick 9%nat|pick 10%nat|pick 11%nat
  |pick 12%nat|pick 13%nat|pick 14%nat|pick 15%nat|pick 16%nat|pick 17%nat|pick 18%nat|pick 19%nat|pick 20%nat|pick 21%nat|pick 22%nat|pick 23%nat].
Lemma wedge_reached : forall x y z, (x <> 0 \/ y <> 0 \/ z <> 0) ->
  (exists i, (i < 24)%nat /\ wedge (nth i (cubicT x y z) (0, 0, 0))) \/ (exists i, (i < 24)%nat /\ wedge (nth i (cubicT (- x) (- y) (- z)) (0, 0, 0))).
Proof.
  intros x y z N.
  assert (P : forall a b c, a * a = x * x -> b * b = y * y -> c * c = z * z -> 0 <= a -> 0 <= b -> 0 <= c -> 0 < a \/ 0 < b \/ 0 < c).
  { intros. destruct N as [N|[N|N]]; [left|right; left|right; right]; nra. }
  destruct (Rle_lt_dec 0 x) as [X|X], (Rle_lt_dec 0 y) as [Y|Y], (Rle_lt_dec 0 z) as [Z|Z].
  1: pose proof (P x y z ltac:(ring) ltac:(ring) ltac:(ring) ltac:(lra) ltac:(lra) ltac:(lra)) as Q; destruct (six_orders x y z) as [O|[O|[O|[O|[O|O]]]]].
  7: pose proof (P x y (- z) ltac:(ring) ltac:(ring) ltac:(ring) ltac:(lra) ltac:(lra) ltac:(lra)) as Q; destruct (six_orders x y (- z)) as [O|[O|[O|[O|[O|O]]]]].
  13: pose proof (P x (- y) z ltac:(ring) ltac:(ring) ltac:(ring) ltac:(lra) ltac:(lra) ltac:(lra)) as Q; destruct (six_orders x (- y) z) as [O|[O|[O|[O|[O|O]]]]].
  19: pose proof (P x (- y) (- z) ltac:(ring) ltac:(ring) ltac:(ring) ltac:(lra) ltac:(lra) ltac:(lra)) as Q; destruct (six_orders x (- y) (- z)) as [O|[O|[O|[O|[O|O]]]]].
  25: pose proof (P (- x) y z ltac:(ring) ltac:(ring) ltac:(ring) ltac:(lra) ltac:(lra) ltac:(lra)) as Q; destruct (six_orders (- x) y z) as [O|[O|[O|[O|[O|O]]]]].
  31: pose proof (P (- x) y (- z) ltac:(ring) ltac:(ring) ltac:(ring) ltac:(lra) ltac:(lra) ltac:(lra)) as Q; destruct (six_orders (- x) y (- z)) as [O|[O|[O|[O|[O|O]]]]].
  37: pose proof (P (- x) (- y) z ltac:(ring) ltac:(ring) ltac:(ring) ltac:(lra) ltac:(lra) ltac:(lra)) as Q; destruct (six_orders (- x) (- y) z) as [O|[O|[O|[O|[O|O]]]]].
  43: pose proof (P (- x) (- y) (- z) ltac:(ring) ltac:(ring) ltac:(ring) ltac:(lra) ltac:(lra) ltac:(lra)) as Q; destruct (six_orders (- x) (- y) (- z)) as [O|[O|[O|[O|[O|O]]]]].
  all: clear P N; first [left; pick_all|right; pick_all].
Qed.
Lemma nth_cubic : forall v i, (i < 24)%nat -> exists R, In R cubic /\ comps (apply_v R v) = nth i (cubicT (v 0%nat) (v 1%nat) (v 2%nat)) (0, 0, 0).
Proof.
  intros v i Hi. rewrite <- cubic_images. assert (L : length cubic = 24%nat) by (rewrite cubic_z, map_length; reflexivity).
  exists (nth i cubic qone). split; [apply nth_In; lia|].
  rewrite (nth_indep _ (0, 0, 0) (comps (apply_v qone v))) by (rewrite map_length; lia). rewrite (map_nth (fun R => comps (apply_v R v))). reflexivity.
Qed.
Lemma cubic_axes : forall a, 0 < a -> exists tr, ipf_axes (miller2cart_direction (cubic_cell a)) [1; 0; 0]%Z [0; 1; 0]%Z = Some tr /\ unitq tr /\ forall v, veq 3 (apply_v tr v) v.
Proof.
  intros a Ha. pose proof (miller_axis a 0 Ha) as EX. pose proof (miller_axis a 1 Ha) as EY. cbv beta iota in EX, EY.
  set (x' := vsum3 _ _ _) in EX at 1. set (y' := vsum3 _ _ _) in EY at 1.
  assert (X0 : x' 0%nat = a) by (unfold x', vsum3, vs; cbn; ring). assert (X1 : x' 1%nat = 0) by (unfold x', vsum3, vs; cbn; ring). assert (X2 : x' 2%nat = 0) by (unfold x', vsum3, vs; cbn; ring).
  assert (Y0 : y' 0%nat = 0) by (unfold y', vsum3, vs; cbn; ring). assert (Y1 : y' 1%nat = a) by (unfold y', vsum3, vs; cbn; ring). assert (Y2 : y' 2%nat = 0) by (unfold y', vsum3, vs; cbn; ring).
  clearbody x' y'. assert (NX : norm3 x' = a) by (unfold norm3, dot3; rewrite X0, X1, X2; replace (a * a + 0 * 0 + 0 * 0) with (a * a) by ring; apply sqrt_square; lra).
  assert (NY : norm3 y' = a) by (unfold norm3, dot3; rewrite Y0, Y1, Y2; replace (0 * 0 + a * a + 0 * 0) with (a * a) by ring; apply sqrt_square; lra).
  destruct (ipf_axes_ok _ _ _ x' y' EX EY) as (tr & E & U & M).
  - rewrite ndot3, X0, X1, X2. nra.
  - rewrite ndot3, Y0, Y1, Y2. nra.
  - rewrite ndot3, X0, X1, X2, Y0, Y1, Y2. ring.
  - exists tr. split; [exact E|]. split; [exact U|]. intros v. destruct (M v) as (A & B & C).
    apply veq3; [rewrite A|rewrite B|rewrite C]; rewrite ndot3; unfold ncross, normalized; rewrite ?NX, ?NY, ?X0, ?X1, ?X2, ?Y0, ?Y1, ?Y2; field; lra.
Qed.
Lemma apply_neg : forall q v, veq 3 (apply_v q (vneg v)) (vneg (apply_v q v)).
Proof. intros q v. apply veq3; unfold vneg, apply_v, qmul, qconj; cbn [q0 q1 q2 q3]; ring. Qed.
Lemma cubic_representative : forall a q d ssym S S', 0 < a -> unitq q -> ndot d d <> 0 -> (forall S, In S ssym -> unitq S) -> In S ssym -> In S' ssym ->
  veq 3 (apply_v S' d) (vneg (apply_v S d)) ->
  exists pts p, project_ipf (miller2cart_direction (cubic_cell a)) cubic q d ssym [1; 0; 0]%Z [0; 1; 0]%Z = Some pts /\
    In p (fst (reduce_points_triangle pts cubic_triangle)).
Proof.
  intros a q d ssym S S' Ha Q N US HS HS' OP. destruct (cubic_axes a Ha) as (tr & ET & UT & Id). unfold project_ipf. rewrite ET.
  set (c := apply_v q (apply_v S (normalized d))).
  assert (NC : unit_vec c) by (repeat (apply apply_v_unit; auto); apply normalized_unit; auto).
  assert (EC : veq 3 (apply_v q (apply_v S' (normalized d))) (vneg c)).
  { unfold c. eapply veq3_trans; [|apply apply_neg]. apply apply_v_ext.
    eapply veq3_trans; [apply veq3_sym, normalized_image; auto|]. eapply veq3_trans; [apply normalized_ext; exact OP|].
    intros i Hi. assert (EI : vneg (apply_v S (normalized d)) i = - normalized (apply_v S d) i) by (unfold vneg; rewrite (normalized_image S d (US S HS) N i Hi); reflexivity).
    rewrite EI. unfold normalized.
    replace (norm3 (vneg (apply_v S d))) with (norm3 (apply_v S d)) by (unfold norm3, dot3, vneg; f_equal; ring). unfold vneg, Rdiv. ring. }
  assert (C0 : c 0%nat <> 0 \/ c 1%nat <> 0 \/ c 2%nat <> 0).
  { unfold unit_vec in NC. rewrite ndot3 in NC. destruct (Req_dec (c 0%nat) 0) as [A|A]; [|auto]. destruct (Req_dec (c 1%nat) 0) as [B|B]; [|auto]. right; right. intros C. rewrite A, B, C in NC. lra. }
  assert (G : forall T v, In T ssym -> veq 3 (apply_v q (apply_v T (normalized d))) v -> forall i, (i < 24)%nat -> wedge (nth i (cubicT (v 0%nat) (v 1%nat) (v 2%nat)) (0, 0, 0)) ->
     exists p, In p (fst (reduce_points_triangle (above (ipf_sphere tr q cubic ssym d)) cubic_triangle))).
  { intros T v HT EV i Hi W. destruct (nth_cubic v i Hi) as (R & HR & ER).
    set (p := apply_v tr (apply_v R (apply_v q (apply_v T (normalized d))))). exists p.
    assert (EP : comps p = comps (apply_v R v)).
    { assert (V : veq 3 p (apply_v R v)) by (eapply veq3_trans; [apply Id|]; apply apply_v_ext; exact EV). unfold comps. rewrite (V 0%nat), (V 1%nat), (V 2%nat) by lia. reflexivity. }
    assert (WP : wedge (comps p)) by (rewrite EP, ER; exact W). apply (proj2 (cubic_reduce (above (ipf_sphere tr q cubic ssym d)) p)). split; [|exact WP].
    apply above_In. split; [apply ipf_sphere_In; exists T, R; auto|]. unfold wedge, comps in WP. tauto. }
  eexists. destruct (wedge_reached _ _ _ C0) as [(i & Hi & W)|(i & Hi & W)].
  - destruct (G S c HS ltac:(intros k _; reflexivity) i Hi W) as (p & Ip). exists p. split; [reflexivity|exact Ip].
  - destruct (G S' (vneg c) HS' EC i Hi W) as (p & Ip). exists p. split; [reflexivity|exact Ip].
Qed.
(** one representative inside the triangle *)
Lemma cubic_unique : forall v R, In R cubic -> open_wedge (comps v) -> open_wedge (comps (apply_v R v)) -> veq 3 (apply_v R v) v.
Proof.
  intros v R HR V W. pose proof (cubic_comps R v HR) as I. unfold open_wedge in V. unfold comps in V.
  unfold cubicT in I; cbn [In] in I.
  repeat (destruct I as [I|I]; [symmetry in I; rewrite I in W; unfold open_wedge in W; first [apply comps3 in I as (A & B & C); apply veq3; assumption|exfalso; lra]|]).
  destruct I.
Qed.
(** a direction of the other handedness is missing *)
Lemma cubic_none : forall v R, In R cubic -> 0 < v 0%nat < v 1%nat -> v 1%nat < v 2%nat -> ~ wedge (comps (apply_v R v)).
Proof.
  intros v R HR V V' W. pose proof (cubic_comps R v HR) as I. unfold cubicT in I; cbn [In] in I.
  repeat (destruct I as [I|I]; [rewrite <- I in W; unfold wedge in W; lra|]). destruct I.
Qed.
Lemma cubic_missing : exists d, ndot d d <> 0 /\ forall a color, 0 < a ->
  inverse_pole_figure_discrete (miller2cart_direction (cubic_cell a)) cubic [qone] d RCubic color (slice 0 4 tetragonal) [1; 0; 0]%Z [0; 1; 0]%Z = None /\
  exists pts, inverse_pole_figure_discrete (miller2cart_direction (cubic_cell a)) cubic [qone] d RFalse color (slice 0 4 tetragonal) [1; 0; 0]%Z [0; 1; 0]%Z = Some pts.
Proof.
  set (d := v3 1 2 3). exists d. assert (ND : ndot d d <> 0) by (rewrite ndot3; cbn; lra). split; [exact ND|]. intros a color Ha.
  destruct (cubic_axes a Ha) as (tr & ET & UT & Id).
  unfold inverse_pole_figure_discrete, ipf_all. cbn [map opt_list]. unfold project_ipf. rewrite ET. cbn [opt_list option_map concat]. rewrite app_nil_r.
  set (pts := above (ipf_sphere tr qone cubic (slice 0 4 tetragonal) d)).
  pose proof (norm3_pos d ND) as NP. assert (NI : 0 < / norm3 d) by (apply Rinv_0_lt_compat; auto).
  assert (W : forall p, In p pts -> ~ wedge (comps p)).
  { intros p I. apply above_In in I as [I _]. apply ipf_sphere_In in I as (S & R & HS & HR & ->).
    pose proof (ortho_comps S (normalized d) HS) as O.
    (* S is also an operator of the crystal *)
    set (n := normalized d) in *. assert (E : veq 3 (apply_v tr (apply_v R (apply_v qone (apply_v S n)))) (apply_v R (apply_v S n))).
    { eapply veq3_trans; [apply Id|]. apply apply_v_ext. apply apply_one. }
    unfold comps. rewrite (E 0%nat), (E 1%nat), (E 2%nat) by lia. fold (comps (apply_v R (apply_v S n))).
    assert (K : exists R', In R' cubic /\ veq 3 (apply_v R (apply_v S n)) (apply_v R' n)).
    { destruct (symmetry_group _ _ cubic_class) as (U & _ & M & _).
      assert (CS : exists T, In T cubic /\ veq 3 (apply_v T n) (apply_v S n)).
      { pose proof (cubic_images n) as CI. assert (I : In (comps (apply_v S n)) (cubicT (n 0%nat) (n 1%nat) (n 2%nat))).
        { unfold orthoT in O; cbn [In] in O. destruct O as [O|[O|[O|[O|[]]]]]; rewrite <- O; unfold cubicT; cbn [In]; tauto. }
        rewrite <- CI in I. apply in_map_iff in I as (T & ET' & HT). exists T. split; [exact HT|]. apply comps_eq; exact ET'. }
      destruct CS as (T & HT & ETS). destruct (M R T HR HT) as (R' & HR' & TT). exists R'. split; [exact HR'|]. apply veq3_sym.
      eapply veq3_trans; [apply apply_turn; [exact TT|apply U; exact HR'|apply unitq_mul; apply U; assumption]|]. eapply veq3_trans; [apply apply_mul3|]. apply apply_v_ext; exact ETS. }
    destruct K as (R' & HR' & EK). unfold comps. rewrite (EK 0%nat), (EK 1%nat), (EK 2%nat) by lia. fold (comps (apply_v R' n)).
    assert (D0 : d 0%nat = 1) by reflexivity. assert (D1 : d 1%nat = 2) by reflexivity. assert (D2 : d 2%nat = 3) by reflexivity.
    apply cubic_none; [exact HR'| |]; unfold n, normalized, Rdiv; rewrite ?D0, ?D1, ?D2; lra. }
  assert (P0 : exists p, In p pts).
  { destruct (group_identity _ (symmetry_group _ _ cubic_class)) as (e & He & Ie). destruct (group_identity _ (symmetry_group _ _ ortho_class)) as (f & Hf & If).
    set (p := apply_v tr (apply_v e (apply_v qone (apply_v f (normalized d))))). exists p. apply above_In. split; [apply ipf_sphere_In; exists f, e; split; [exact Hf|split; [exact He|reflexivity]]|].
    assert (E : veq 3 p (normalized d)).
    { eapply veq3_trans; [apply Id|]. eapply veq3_trans; [apply Ie|]. eapply veq3_trans; [apply apply_one|]. apply If. }
    rewrite (E 2%nat) by lia. unfold normalized, Rdiv. assert (D2 : d 2%nat = 3) by reflexivity. rewrite D2. lra. }
  assert (AB : forall p, In p pts -> 0 < p 2%nat) by (intros p J; apply above_In in J as [_ J]; exact J).
  clearbody pts. split.
  - assert (F : fst (reduce_points_triangle pts cubic_triangle) = []).
    { destruct (fst (reduce_points_triangle pts cubic_triangle)) as [|p l] eqn:EF; [reflexivity|exfalso].
      assert (I : In p (fst (reduce_points_triangle pts cubic_triangle))) by (rewrite EF; left; reflexivity).
      assert (TP : 0 < triple (v3 0 0 1) (v3 1 0 1) (v3 1 1 1)) by (rewrite cubic_triple; lra). pose proof I as I'. unfold cubic_triangle in I'. apply reduce_ok in I' as [J CN]; [|exact TP].
      apply (W p J). apply wedge_cone. split; [exact CN|apply (AB p J)]. }
    destruct (reduce_points_triangle pts cubic_triangle) as [l t]. cbn [fst] in F. subst l. reflexivity.
  - destruct P0 as (p & Ip). destruct pts as [|p' l]; [destruct Ip|]. eexists; reflexivity.
Qed.
