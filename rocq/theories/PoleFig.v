(** Proofs about pole figures and inverse pole figures (neml/cp/polefigures.py). *)
From Coq Require Import String ZArith.
From Verif Require Import Base.
From Verif Require Import Diff.
From Verif Require Import NemlMathModel NemlMathSpec RotModel RotSpec RotProofs RotMatrix RotConv RotMore.
From Verif Require Import CrystModel CrystSpec CrystProofs CrystLattice.
From Verif Require Import PoleModel PoleSpec PoleProofs.
From Coq Require Import Psatz FunctionalExtensionality.

(** ** Rotations of vectors *)
Lemma apply_v_ext : forall q a b, veq 3 a b -> veq 3 (apply_v q a) (apply_v q b).
Proof. intros q a b H i _. unfold apply_v. rewrite (H 0%nat), (H 1%nat), (H 2%nat) by lia. reflexivity. Qed.
Lemma apply_v_unit : forall q v, unitq q -> unit_vec v -> unit_vec (apply_v q v).
Proof. intros q v Q V. unfold unit_vec. rewrite apply_v_dot; auto. Qed.
Lemma apply_turn : forall a b v, same_turn a b -> unitq a -> unitq b -> veq 3 (apply_v a v) (apply_v b v).
Proof.
  intros a b v H A B i Hi. rewrite !apply_v_matrix by auto. unfold mv3. apply rsum_ext. intros k Hk. rewrite (H i k Hi Hk). reflexivity.
Qed.
Lemma apply_one : forall v, veq 3 (apply_v qone v) v.
Proof. intros v. apply veq3; unfold apply_v, qone, qmul, qconj; cbn [q0 q1 q2 q3]; ring. Qed.
Lemma apply_mul3 : forall a b v, veq 3 (apply_v (qmul a b) v) (apply_v a (apply_v b v)).
Proof. intros a b v i Hi. apply apply_v_mul; auto. Qed.
Lemma unitq_mul : forall a b, unitq a -> unitq b -> unitq (qmul a b).
Proof.
  intros a b A B. unfold unitq in *. unfold qmul; cbn [q0 q1 q2 q3].
  transitivity ((q0 a * q0 a + q1 a * q1 a + q2 a * q2 a + q3 a * q3 a) * (q0 b * q0 b + q1 b * q1 b + q2 b * q2 b + q3 b * q3 b)); [ring|]. rewrite A, B; ring.
Qed.
Lemma unitq_conj : forall a, unitq a -> unitq (qconj a).
Proof. intros a A. unfold unitq in *. unfold qconj; cbn [q0 q1 q2 q3]. rewrite <- A; ring. Qed.
Lemma unitq_one : unitq qone. Proof. unfold unitq, qone; cbn; ring. Qed.
Lemma listed_ext : forall a b l, veq 3 a b -> listed a l -> listed b l.
Proof. intros a b l H (u & I & E). exists u. split; [auto|]. eapply veq3_trans; eauto. Qed.

(** ** The cubic and orthorhombic groups as signed permutations *)
Definition cubicT (x y z : R) : list (R * R * R) :=
  [(x, y, z); (z, x, y); (y, z, x); (- y, z, - x); (- y, - z, x); (y, - z, - x); (- z, x, - y); (- z, - x, y); (z, - x, - y);
   (- x, y, - z); (- x, - y, z); (x, - y, - z); (- z, - y, - x); (z, - y, x); (z, y, - x); (- z, y, x); (- x, - z, - y);
   (x, - z, y); (x, z, - y); (- x, z, y); (- y, - x, - z); (y, - x, z); (y, x, - z); (- y, x, z)].
Lemma cubic_images : forall v, map (fun R => comps (apply_v R v)) cubic = cubicT (v 0%nat) (v 1%nat) (v 2%nat).
Proof.
  intros v. rewrite cubic_z. unfold cubicZ, cubicT. cbn [map]. assert (H : sqrt 2 * sqrt 2 = 2) by (apply sqrt_sqrt; lra).
  unfold comps, apply_v, evq, zqi, zqr, ev, qmul, qconj; cbn [q0 q1 q2 q3 z0 z1 z2 z3 fst snd].
  set (s := sqrt 2) in *; clearbody s. generalize (v 0%nat) (v 1%nat) (v 2%nat); intros x y z.
  repeat (apply f_equal2; [apply f_equal2; [apply f_equal2|]; field [H]|]). reflexivity.
Qed.
Definition orthoT (x y z : R) : list (R * R * R) := [(x, y, z); (- x, y, - z); (x, - y, - z); (- x, - y, z)].
Lemma ortho_images : forall v, map (fun R => comps (apply_v R v)) (slice 0 4 tetragonal) = orthoT (v 0%nat) (v 1%nat) (v 2%nat).
Proof.
  intros v. rewrite tetragonal_z, slice_map. unfold tetragonalZ, orthoT, slice. cbn [map firstn skipn Nat.sub].
  unfold comps, apply_v, evq, zqi, zqr, ev, qmul, qconj; cbn [q0 q1 q2 q3 z0 z1 z2 z3 fst snd].
  generalize (v 0%nat) (v 1%nat) (v 2%nat); intros x y z.
  repeat (apply f_equal2; [apply f_equal2; [apply f_equal2|]; field|]). reflexivity.
Qed.
Lemma cubic_class : symmetry_rotations "432" = Some cubic.
Proof. unfold symmetry_rotations. cbn [String.eqb Ascii.eqb Bool.eqb]. unfold slice. rewrite cubic_z. reflexivity. Qed.
Lemma ortho_class : symmetry_rotations "222" = Some (slice 0 4 tetragonal).
Proof. reflexivity. Qed.
Lemma comps_eq : forall u v, comps u = comps v -> veq 3 u v.
Proof. intros u v H. unfold comps in H. injection H as A B C. apply veq3; auto. Qed.

(** ** Pole figures *)
Lemma pole_points_In : forall os srot ops ssym p w, In w (pole_points os srot ops ssym p) <->
  exists u S o, In u (equivalent_vectors ops p) /\ In S ssym /\ In o os /\ w = apply_v srot (apply_v (oinv o) (apply_v S (normalized u))).
Proof.
  intros. unfold pole_points. rewrite in_flat_map. split.
  - intros (x & Hx & Hw). apply in_flat_map in Hx as (y & Hy & Hx). apply in_map_iff in Hy as (u & <- & Hu). apply in_map_iff in Hx as (S & <- & HS).
    apply in_map_iff in Hw as (o & <- & Ho). exists u, S, o. tauto.
  - intros (u & S & o & Hu & HS & Ho & ->). exists (apply_v S (normalized u)). split.
    + apply in_flat_map. exists (normalized u). split; [apply in_map; auto|]. apply in_map_iff. exists S; tauto.
    + apply in_map_iff. exists o; tauto.
Qed.
Lemma upper_In : forall l p, In p (upper l) <-> In p l /\ 0 <= p 2%nat.
Proof. intros. unfold upper. rewrite filter_In. destruct (Rle_dec 0 (p 2%nat)); split; intros [A B]; try discriminate; auto; contradiction. Qed.
Lemma above_In : forall l p, In p (above l) <-> In p l /\ 0 < p 2%nat.
Proof. intros. unfold above. rewrite filter_In. destruct (Rlt_dec 0 (p 2%nat)); split; intros [A B]; try discriminate; auto; contradiction. Qed.
Lemma normalized_image : forall R p, unitq R -> ndot p p <> 0 -> veq 3 (normalized (apply_v R p)) (apply_v R (normalized p)).
Proof.
  intros R p U N. assert (E : norm3 (apply_v R p) = norm3 p) by (unfold norm3; rewrite !dot3_ndot, apply_v_dot; auto).
  pose proof (norm3_pos p N) as P. apply veq3; unfold normalized at 1; rewrite E; unfold apply_v, normalized, qmul, qconj; cbn [q0 q1 q2 q3]; field; lra.
Qed.
Lemma normalized_ext : forall a b, veq 3 a b -> veq 3 (normalized a) (normalized b).
Proof.
  intros a b H. assert (E : norm3 a = norm3 b) by (unfold norm3, dot3; rewrite (H 0%nat), (H 1%nat), (H 2%nat) by lia; reflexivity).
  intros i Hi. unfold normalized. rewrite E, (H i Hi). reflexivity.
Qed.
Lemma pole_points_listed : forall os srot ops ssym p w, (forall R, In R ops -> unitq R) -> ndot p p <> 0 -> images_apart ops p ->
  (listed w (pole_points os srot ops ssym p) <->
   exists R S o, In R ops /\ In S ssym /\ In o os /\ veq 3 w (apply_v srot (apply_v (oinv o) (apply_v S (apply_v R (normalized p)))))).
Proof.
  intros os srot ops ssym p w U N X. destruct (equivalent_ok ops p) as (A & _). destruct (equivalent_exact ops p X) as (B & _). split.
  - intros (v & I & E). apply pole_points_In in I as (u & S & o & Hu & HS & Ho & ->). destruct (A u Hu) as (R & HR & ->).
    exists R, S, o. split; [|split; [|split]]; auto. eapply veq3_trans; [apply veq3_sym; exact E|]. do 3 apply apply_v_ext. apply normalized_image; auto.
  - intros (R & S & o & HR & HS & Ho & E). destruct (B R HR) as (u & Hu & Eu).
    exists (apply_v srot (apply_v (oinv o) (apply_v S (normalized u)))). split; [apply pole_points_In; exists u, S, o; tauto|].
    apply veq3_sym. eapply veq3_trans; [exact E|]. do 3 apply apply_v_ext. eapply veq3_trans; [apply veq3_sym, normalized_image; auto|].
    apply normalized_ext, veq3_sym; exact Eu.
Qed.
Lemma pole_unit : forall os srot ops ssym p w, unitq srot -> (forall R, In R ops -> unitq R) -> (forall S, In S ssym -> unitq S) -> (forall o, In o os -> unitq o) ->
  ndot p p <> 0 -> In w (pole_points os srot ops ssym p) -> unit_vec w.
Proof.
  intros os srot ops ssym p w US UR UY UO N I. apply pole_points_In in I as (u & S & o & Hu & HS & Ho & ->).
  apply apply_v_unit; auto. apply apply_v_unit; [apply unitq_conj; auto|]. apply apply_v_unit; auto. apply normalized_unit.
  rewrite (equivalent_length ops p u UR Hu). exact N.
Qed.
(** the axes of the plot *)
Lemma axes_apply : forall x y v, unit_vec x -> unit_vec y -> ndot x y = 0 -> exists srot, setVectors x y = Some srot /\ unitq srot /\
  forall k, (k < 3)%nat -> apply_v srot v k = v 0%nat * x k + v 1%nat * y k + v 2%nat * ncross x y k.
Proof.
  intros x y v X Y O. destruct (vectors_sound x y X Y O) as (srot & E & U & M). exists srot. split; [exact E|]. split; [exact U|].
  intros k Hk. rewrite apply_v_matrix by auto. unfold mv3. cbn [rsum]. destruct (M k Hk) as (-> & -> & ->). ring.
Qed.
Lemma axes_refuted : exists x y srot, unit_vec x /\ unit_vec y /\ ndot x y = 0 /\ setVectors x y = Some srot /\
  apply_v srot x 0%nat = 0 /\ apply_v srot x 2%nat = 1.
Proof.
  set (x := v3 0 1 0). set (y := v3 0 0 1). assert (X : unit_vec x) by (unfold unit_vec; rewrite ndot3; cbn; ring).
  assert (Y : unit_vec y) by (unfold unit_vec; rewrite ndot3; cbn; ring). assert (O : ndot x y = 0) by (rewrite ndot3; cbn; ring).
  destruct (axes_apply x y x X Y O) as (s & E & _ & M). exists x, y, s. repeat split; auto; rewrite M by lia; cbn; ring.
Qed.
(** crystal symmetry, when the sample operators belong to the crystal's *)
Lemma pole_contained : forall os srot ops ssym p w, rot_group ops -> rot_group ssym -> contained ssym ops -> ndot p p <> 0 -> images_apart ops p ->
  (listed w (pole_points os srot ops ssym p) <->
   exists R o, In R ops /\ In o os /\ veq 3 w (apply_v srot (apply_v (oinv o) (apply_v R (normalized p))))).
Proof.
  intros os srot ops ssym p w (UR & _ & MR & _ & _) (US & (e & He & Te) & _) C N X. rewrite pole_points_listed by auto. split.
  - intros (R & S & o & HR & HS & Ho & E). destruct (C S HS) as (R' & HR' & T'). destruct (MR R' R HR' HR) as (Q & HQ & TQ).
    exists Q, o. split; [|split]; auto. eapply veq3_trans; [exact E|]. do 2 apply apply_v_ext.
    apply veq3_sym. eapply veq3_trans; [apply apply_turn; [exact TQ|auto|apply unitq_mul; auto]|]. eapply veq3_trans; [apply apply_mul3|].
    apply apply_turn; auto.
  - intros (R & o & HR & Ho & E). exists R, e, o. split; [|split; [|split]]; auto. eapply veq3_trans; [exact E|]. do 2 apply apply_v_ext.
    apply veq3_sym. eapply veq3_trans; [apply apply_turn; [exact Te|auto|apply unitq_one]|]. apply apply_one.
Qed.
Lemma rot_group_one : rot_group [qone].
Proof.
  assert (E : forall a, In a [qone] -> a = qone) by (intros a [<-|[]]; reflexivity).
  repeat split.
  - intros a H. rewrite (E a H). apply unitq_one.
  - exists qone. split; [left; auto|apply same_turn_refl].
  - intros a b A B. rewrite (E a A), (E b B). exists qone. split; [left; auto|]. replace (qmul qone qone) with qone by (unfold qone, qmul; cbn [q0 q1 q2 q3]; f_equal; ring). apply same_turn_refl.
  - intros a A. rewrite (E a A). exists qone. split; [left; auto|]. replace (qconj qone) with qone by (unfold qone, qconj; cbn [q0 q1 q2 q3]; f_equal; ring). apply same_turn_refl.
  - intros [|i] [|j] a b A B _; auto; cbn in *; try (destruct i; discriminate); destruct j; discriminate.
Qed.
Lemma pole_idle : forall os srot ops ssym p, rot_group ops -> rot_group ssym -> contained ssym ops -> ndot p p <> 0 -> images_apart ops p ->
  same_points (pole_points os srot ops ssym p) (pole_points os srot ops [qone] p).
Proof.
  intros os srot ops ssym p G GS C N X w. rewrite (pole_contained os srot ops ssym p w) by auto.
  rewrite (pole_contained os srot ops [qone] p w); [tauto|auto|apply rot_group_one| |auto|auto].
  intros S [<-|[]]. destruct G as (_ & (e & He & Te) & _). exists e; auto.
Qed.
Lemma oinv_mul : forall a b, oinv (qmul a b) = qmul (oinv b) (oinv a).
Proof. intros a b. unfold oinv, qconj, qmul; cbn [q0 q1 q2 q3]. f_equal; ring. Qed.
Lemma pole_crystal : forall os srot ops ssym p R, rot_group ops -> rot_group ssym -> contained ssym ops -> ndot p p <> 0 -> images_apart ops p ->
  In R ops -> same_points (pole_points (map (qmul R) os) srot ops ssym p) (pole_points os srot ops ssym p).
Proof.
  intros os srot ops ssym p R G GS C N X HR w. rewrite !pole_contained by auto. destruct G as (U & _ & M & I & _). split.
  - intros (Q & o & HQ & Ho & E). apply in_map_iff in Ho as (o' & <- & Ho). destruct (I R HR) as (R' & HR' & T'). destruct (M R' Q HR' HQ) as (Q' & HQ' & TQ').
    exists Q', o'. split; [|split]; auto. eapply veq3_trans; [exact E|]. rewrite oinv_mul. apply apply_v_ext.
    eapply veq3_trans; [apply apply_mul3|]. apply apply_v_ext. apply veq3_sym.
    eapply veq3_trans; [apply apply_turn; [exact TQ'|auto|apply unitq_mul; auto]|]. eapply veq3_trans; [apply apply_mul3|].
    apply apply_turn; auto. apply unitq_conj; auto.
  - intros (Q & o & HQ & Ho & E). destruct (M R Q HR HQ) as (Q' & HQ' & TQ'). exists Q', (qmul R o). split; [|split]; [auto|apply in_map; auto|].
    eapply veq3_trans; [exact E|]. rewrite oinv_mul. apply apply_v_ext. apply veq3_sym. eapply veq3_trans; [apply apply_mul3|]. apply apply_v_ext.
    eapply veq3_trans; [apply apply_v_ext, apply_turn; [exact TQ'|auto|apply unitq_mul; auto]|].
    eapply veq3_trans; [apply apply_v_ext, apply_mul3|]. intros i Hi. apply apply_v_inv; auto.
Qed.
(** the plot: radii within the limit, the points those of the upper half sphere *)
Lemma pole_figure_ok : forall m2d ops os pole proj ssym x y pts lim, unit_vec x -> unit_vec y -> ndot x y = 0 ->
  (forall R, In R ops -> unitq R) -> (forall S, In S ssym -> unitq S) -> (forall o, In o os -> unitq o) ->
  pole_figure_discrete m2d ops os pole proj ssym x y = Some (pts, lim) ->
  exists srot p pop, setVectors x y = Some srot /\ m2d pole = Some p /\ projection proj = Some (pop, lim) /\
    (ndot p p <> 0 -> forall a, In a pts -> 0 <= snd a <= lim) /\
    (forall a, In a pts -> exists w, In w (pole_points os srot ops ssym p) /\ 0 <= w 2%nat /\ pol2cart (snd a) (fst a) = pop w) /\
    (forall w, In w (pole_points os srot ops ssym p) -> 0 <= w 2%nat -> exists a, In a pts /\ pol2cart (snd a) (fst a) = pop w).
Proof.
  intros m2d ops os pole proj ssym x y pts lim X Y O UR US UO H. destruct (axes_apply x y x X Y O) as (srot & ES & UZ & _).
  unfold pole_figure_discrete in H. rewrite ES in H. destruct (m2d pole) as [p|] eqn:EP; [|discriminate].
  destruct (projection proj) as [[pop l]|] eqn:EJ; [|discriminate].
  assert (H' : pts = map cart2pol (map pop (upper (pole_points os srot ops ssym p))) /\ lim = l).
  { destruct (upper (pole_points os srot ops ssym p)); [discriminate|]. split; congruence. }
  clear H. destruct H' as [-> ->]. exists srot, p, pop. split; [auto|]. split; [auto|]. split; [auto|]. split; [|split].
  - intros N a I. apply in_map_iff in I as (c & <- & I). apply in_map_iff in I as (w & <- & I). apply upper_In in I as [I Z]. split; [apply sqrt_pos|].
    apply (plotted_radius proj pop l w EJ); [|lra|auto]. eapply pole_unit; [exact UZ|exact UR|exact US|exact UO|exact N|exact I].
  - intros a I. apply in_map_iff in I as (c & <- & I). apply in_map_iff in I as (w & <- & I). apply upper_In in I as [I Z]. exists w. split; [auto|]. split; [auto|].
    apply polar_round_trip.
  - intros w I Z. exists (cart2pol (pop w)). split; [|apply polar_round_trip]. do 2 apply in_map. apply upper_In; auto.
Qed.
Lemma pole_figure_empty : forall m2d ops os pole proj ssym x y srot p, setVectors x y = Some srot -> m2d pole = Some p ->
  (pole_figure_discrete m2d ops os pole proj ssym x y = None <->
   projection proj = None \/ forall w, In w (pole_points os srot ops ssym p) -> w 2%nat < 0).
Proof.
  intros m2d ops os pole proj ssym x y srot p E P. unfold pole_figure_discrete. rewrite E, P. destruct (projection proj) as [[pop l]|]; [|tauto].
  split.
  - intros H. right. intros w I. destruct (Rlt_dec (w 2%nat) 0) as [L|L]; [exact L|exfalso].
    assert (I' : In w (upper (pole_points os srot ops ssym p))) by (apply upper_In; split; [auto|lra]).
    destruct (upper (pole_points os srot ops ssym p)); [destruct I'|discriminate].
  - intros [H|H]; [discriminate|]. destruct (upper (pole_points os srot ops ssym p)) as [|w l'] eqn:U; [reflexivity|exfalso].
    assert (I : In w (upper (pole_points os srot ops ssym p))) by (rewrite U; left; auto). apply upper_In in I as [I Z]. specialize (H w I). lra.
Qed.
(** the sample symmetry is not a symmetry of the figure: default arguments, cubic crystal *)
Lemma axis_images : forall R, In R cubic -> exists s, (s = 1 \/ s = -1) /\ exists k, (k < 3)%nat /\ forall i, (i < 3)%nat -> apply_v R (v3 1 0 0) i = s * delta i k.
Proof.
  intros R HR. pose proof (cubic_images (v3 1 0 0)) as M. cbn [v3] in M.
  assert (I : In (comps (apply_v R (v3 1 0 0))) (cubicT 1 0 0)) by (rewrite <- M; apply in_map_iff; exists R; auto).
  assert (K : forall a b c s k, comps (apply_v R (v3 1 0 0)) = (a, b, c) -> (s = 1 \/ s = -1) -> (k < 3)%nat -> a = s * delta 0 k -> b = s * delta 1 k -> c = s * delta 2 k ->
    exists s, (s = 1 \/ s = -1) /\ exists k, (k < 3)%nat /\ forall i, (i < 3)%nat -> apply_v R (v3 1 0 0) i = s * delta i k).
  { intros a b c s k E S Hk A B C. exists s. split; [auto|]. exists k. split; [auto|]. pose proof (f_equal (fun t => fst (fst t)) E) as E0.
    pose proof (f_equal (fun t => snd (fst t)) E) as E1. pose proof (f_equal snd E) as E2. unfold comps in E0, E1, E2. cbn [fst snd] in E0, E1, E2.
    intros [|[|[|i]]] Hi; [rewrite E0; exact A|rewrite E1; exact B|rewrite E2; exact C|lia]. }
  unfold cubicT in I. cbn [In] in I.
  repeat (destruct I as [I|I]; [symmetry in I;
    first [eapply (K _ _ _ 1 0%nat I); [tauto|lia|unfold delta; cbn; ring..]
          |eapply (K _ _ _ 1 1%nat I); [tauto|lia|unfold delta; cbn; ring..]
          |eapply (K _ _ _ 1 2%nat I); [tauto|lia|unfold delta; cbn; ring..]
          |eapply (K _ _ _ (-1) 0%nat I); [tauto|lia|unfold delta; cbn; ring..]
          |eapply (K _ _ _ (-1) 1%nat I); [tauto|lia|unfold delta; cbn; ring..]
          |eapply (K _ _ _ (-1) 2%nat I); [tauto|lia|unfold delta; cbn; ring..]]|]).
  destruct I.
Qed.
Lemma miller_axis : forall a k, 0 < a -> miller2cart_direction (cubic_cell a) [match k with O => 1 | _ => 0 end; match k with S O => 1 | _ => 0 end; match k with S (S _) => 1 | _ => 0 end]%Z =
  Some (vsum3 (vs (IZR match k with O => 1 | _ => 0 end) (v3 a 0 0)) (vs (IZR match k with S O => 1 | _ => 0 end) (v3 0 a 0)) (vs (IZR match k with S (S _) => 1 | _ => 0 end) (v3 0 0 a))).
Proof. intros a [|[|k]] H; reflexivity. Qed.
