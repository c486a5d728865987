(** Proofs about offset yield stresses. *)
From Coq Require Import List Lra Lia.
From Verif Require Import Base YldModel YldSpec.
From Coq Require Import List.
Import ListNotations.
Open Scope R_scope.

Lemma rising_tail : forall p l, rising (p :: l) -> rising l.
Proof. intros p [|q l]; [reflexivity|]. now intros (_ & H). Qed.
Lemma sort_rising : forall l, rising l -> sort_curve l = l.
Proof.
  induction l as [|p l IH]; intro H; [reflexivity|]. unfold sort_curve in *. cbn. rewrite IH by now apply rising_tail in H.
  destruct l as [|q l]; [reflexivity|]. cbn. destruct H as (H & _). destruct (Rlt_dec (fst q) (fst p)); [lra|reflexivity].
Qed.
Lemma on_head : forall p q l e, fst p <= e <= fst q -> on_curve (p :: q :: l) e (snd p + slope p q * (e - fst p)).
Proof. intros. exists [], p, q, l. auto. Qed.
Lemma on_tail : forall p l e s, on_curve l e s -> on_curve (p :: l) e s.
Proof. intros p l e s (a & u & v & b & -> & H). exists (p :: a), u, v, b. auto. Qed.
Lemma on_cons : forall p q l e s, on_curve (p :: q :: l) e s -> (fst p <= e <= fst q /\ s = snd p + slope p q * (e - fst p)) \/ on_curve (q :: l) e s.
Proof.
  intros p q l e s ([|u a] & v & w & b & E & H); cbn in E.
  - inversion E; subst. now left.
  - inversion E; subst. right. exists a, v, w, b. auto.
Qed.
Lemma on_one : forall p e s, ~ on_curve [p] e s.
Proof. intros p e s ([|u [|v a]] & x & y & b & E & _); cbn in E; discriminate. Qed.
Lemma on_nil : forall e s, ~ on_curve [] e s.
Proof. intros e s ([|u a] & x & y & b & E & _); cbn in E; discriminate. Qed.
Lemma on_from : forall l p e s, rising (p :: l) -> on_curve (p :: l) e s -> fst p <= e.
Proof.
  induction l as [|q l IH]; intros p e s R H; [now apply on_one in H|]. apply on_cons in H as [(H & _)|H]; [lra|]. destruct R as (R & R2).
  specialize (IH q e s R2 H). lra.
Qed.
(** the interpolation, for rising strains *)
Lemma pieces_on : forall l p x y, rising (p :: l) -> fst p <= x -> pieces (p :: l) x = Some y -> on_curve (p :: l) x y.
Proof.
  induction l as [|q l IH]; intros p x y R L H; [discriminate|]. cbn in H. destruct (Rle_dec x (fst q)) as [K|K].
  - inversion H. apply on_head. lra.
  - apply on_tail. apply IH; [now destruct R|lra|exact H].
Qed.
Lemma on_pieces : forall l p x y, rising (p :: l) -> on_curve (p :: l) x y -> pieces (p :: l) x = Some y.
Proof.
  induction l as [|q l IH]; intros p x y R H; [now apply on_one in H|]. cbn. destruct R as (R & R2). apply on_cons in H as [(H & ->)|H].
  - destruct (Rle_dec x (fst q)) as [K|K]; [reflexivity|lra].
  - pose proof (on_from _ _ _ _ R2 H) as L. destruct (Rle_dec x (fst q)) as [K|K].
    + assert (x = fst q) by lra. subst x. specialize (IH q (fst q) y R2 H). destruct l as [|r l]; [discriminate|]. cbn in IH. destruct R2 as (R2 & R3).
      destruct (Rle_dec (fst q) (fst r)) as [J|J]; [|lra]. inversion IH. f_equal. unfold slope. field. lra.
    + now apply IH.
Qed.
Lemma interp_on : forall l x y, rising l -> (interp1d l x = Some y <-> on_curve l x y).
Proof.
  intros l x y R. unfold interp1d. rewrite sort_rising by exact R. destruct l as [|p l]; [split; [discriminate|intro H; now apply on_nil in H]|].
  destruct (Rlt_dec x (fst p)).
  - split; [discriminate|]. intro H. apply on_from in H; [lra|exact R].
  - split; [intro H; apply pieces_on; [exact R|lra|exact H]|now apply on_pieces].
Qed.
Lemma on_total : forall l p x, rising (p :: l) -> l <> [] -> fst p <= x <= fst (last l p) -> exists y, on_curve (p :: l) x y.
Proof.
  induction l as [|q l IH]; intros p x R N H; [congruence|]. destruct (Rle_dec x (fst q)) as [K|K]; [eexists; apply on_head; lra|].
  destruct l as [|r l]; [cbn in H; lra|]. destruct (IH q x) as (y & Hy); [now destruct R|discriminate| |exists y; now apply on_tail].
  split; [lra|]. replace (last (r :: l) q) with (last (q :: r :: l) p); [apply H|]. clear. revert r. induction l as [|s l IH]; intro r; [reflexivity|]. exact (IH s).
Qed.
Lemma on_unique : forall l x y z, rising l -> on_curve l x y -> on_curve l x z -> y = z.
Proof. intros l x y z R H K. apply interp_on in H, K; try exact R. congruence. Qed.
Lemma last_cons : forall (q : R * R) l p, last (q :: l) p = last l q.
Proof. intros q l. revert q. induction l as [|r l IH]; intros q p; [reflexivity|]. transitivity (last (r :: l) p); [reflexivity|]. rewrite (IH r p). symmetry. exact (IH r q). Qed.

(** ** The distance from the line E (e - eo) along a concave curve *)
Definition gap (E eo : R) (p : R * R) : R := snd p - E * (fst p - eo).
Lemma seg_gap : forall E eo p q e, fst p < fst q -> (snd p + slope p q * (e - fst p)) - E * (e - eo) = gap E eo p + (gap E eo q - gap E eo p) / (fst q - fst p) * (e - fst p).
Proof. intros E eo p q e H. unfold gap, slope. field. lra. Qed.
Lemma slope_gap : forall E eo p q, fst p < fst q -> (gap E eo q - gap E eo p) / (fst q - fst p) = slope p q - E.
Proof. intros E eo p q H. unfold gap, slope. field. lra. Qed.
(** once on or below the line with a smaller slope, below it for ever *)
Lemma below_after : forall l p E eo m, rising (p :: l) -> concave (p :: l) -> gap E eo p <= 0 -> m < E ->
  (match l with q :: _ => slope p q <= m | [] => True end) -> forall e s, on_curve (p :: l) e s -> fst p < e -> s - E * (e - eo) < 0.
Proof.
  induction l as [|q l IH]; intros p E eo m R C G M S e s H L; [now apply on_one in H|]. destruct R as (R & R2).
  assert (D : (gap E eo q - gap E eo p) / (fst q - fst p) < 0) by (rewrite slope_gap by exact R; lra).
  assert (Q : gap E eo q < 0). { replace (gap E eo q) with (gap E eo p + (gap E eo q - gap E eo p) / (fst q - fst p) * (fst q - fst p)) by (field; lra). nra. }
  apply on_cons in H as [(H & ->)|H].
  - rewrite seg_gap by exact R. nra.
  - destruct (Req_dec e (fst q)) as [->|N].
    + destruct l as [|r l]; [now apply on_one in H|]. assert (s = snd q); [|subst; exact Q]. apply (on_unique (q :: r :: l) (fst q)); [exact R2|exact H|].
      destruct R2 as (R2 & _). replace (snd q) with (snd q + slope q r * (fst q - fst q)) by ring. apply on_head. lra.
    + pose proof (on_from _ _ _ _ R2 H). apply (IH q E eo m); auto; try lra.
      * destruct l; [exact I|now destruct C].
      * destruct l as [|r l]; [exact I|]. destruct C as (C & _). lra.
Qed.
Lemma crossing : forall l p E eo, rising (p :: l) -> concave (p :: l) -> 0 < gap E eo p -> gap E eo (last l p) < 0 ->
  exists e s, on_curve (p :: l) e s /\ fst p <= e <= fst (last l p) /\ s = E * (e - eo)
    /\ (forall e' s', on_curve (p :: l) e' s' -> e' < e -> 0 < s' - E * (e' - eo)) /\ (forall e' s', on_curve (p :: l) e' s' -> e < e' -> s' - E * (e' - eo) < 0).
Proof.
  induction l as [|q l IH]; intros p E eo R C GP GL; [cbn in GL; lra|]. rewrite last_cons in *. destruct R as (R & R2).
  destruct (Rlt_le_dec 0 (gap E eo q)) as [GQ|GQ].
  - destruct (IH q E eo) as (e & s & HO & B & ES & A1 & A2); [exact R2|destruct l; [exact I|now destruct C]|exact GQ|exact GL|].
    exists e, s. split; [now apply on_tail|]. split; [lra|]. split; [exact ES|]. split.
    + intros e' s' H' L. apply on_cons in H' as [(H' & ->)|H']; [|now apply A1]. rewrite seg_gap by exact R.
      replace (gap E eo p + _) with (gap E eo p * ((fst q - e') / (fst q - fst p)) + gap E eo q * ((e' - fst p) / (fst q - fst p))) by (field; lra).
      assert (0 <= (fst q - e') / (fst q - fst p)) by (apply Rcomplements.Rdiv_le_0_compat; lra).
      assert (0 <= (e' - fst p) / (fst q - fst p)) by (apply Rcomplements.Rdiv_le_0_compat; lra).
      assert ((fst q - e') / (fst q - fst p) + (e' - fst p) / (fst q - fst p) = 1) by (field; lra).
      revert H H0 H1. generalize ((fst q - e') / (fst q - fst p)) as u, ((e' - fst p) / (fst q - fst p)) as v. intros u v Hu Hv UV.
      pose proof (Rmult_le_pos _ _ (Rlt_le _ _ GP) Hu). pose proof (Rmult_le_pos _ _ (Rlt_le _ _ GQ) Hv).
      destruct (Rle_lt_dec u 0); [assert (v = 1) by lra; subst; lra|pose proof (Rmult_lt_0_compat _ _ GP r); lra].
    + intros e' s' H' L. apply on_cons in H' as [(H' & ->)|H']; [lra|now apply A2].
  - set (d := (gap E eo q - gap E eo p) / (fst q - fst p)). assert (D : d < 0).
    { unfold d. apply Rmult_lt_reg_r with (fst q - fst p); [lra|]. replace (_ / _ * _) with (gap E eo q - gap E eo p) by (field; lra). lra. }
    assert (GD : gap E eo q = gap E eo p + d * (fst q - fst p)) by (unfold d; field; lra).
    set (e := fst p + gap E eo p / - d).
    assert (E1 : gap E eo p = - d * (e - fst p)) by (unfold e; field; lra).
    assert (B : fst p < e <= fst q) by (split; [apply Rnot_le_lt; intro; nra|apply Rnot_lt_le; intro; nra]).
    exists e, (snd p + slope p q * (e - fst p)). split; [apply on_head; lra|]. split.
    { split; [lra|]. apply Rle_trans with (fst q); [lra|]. clear - R2. revert q R2. induction l as [|r l IH]; intros q R2; [apply Rle_refl|]. rewrite last_cons. destruct R2 as (A & B). specialize (IH r B). lra. }
    split; [|split].
    + pose proof (seg_gap E eo p q e R) as SG. fold d in SG. lra.
    + intros e' s' H' L. apply on_cons in H' as [(H' & ->)|H']; [|apply on_from in H'; [lra|exact R2]]. rewrite seg_gap by exact R. fold d. nra.
    + intros e' s' H' L. assert (SL : slope p q < E) by (pose proof (slope_gap E eo p q R) as SG; fold d in SG; lra).
      apply on_cons in H' as [(H' & ->)|H']; [rewrite seg_gap by exact R; fold d; nra|].
      pose proof (on_from _ _ _ _ R2 H') as F. destruct (Req_dec e' (fst q)) as [->|N].
      * destruct l as [|r l]; [now apply on_one in H'|]. assert (s' = snd q).
        { apply (on_unique (q :: r :: l) (fst q)); [exact R2|exact H'|]. destruct R2 as (R2 & _). replace (snd q) with (snd q + slope q r * (fst q - fst q)) by ring. apply on_head. lra. }
        subst. fold (gap E eo q). nra.
      * apply (below_after l q E eo (slope p q)); auto; try lra.
        -- destruct l; [exact I|now destruct C].
        -- destruct l as [|r l]; [exact I|]. now destruct C.
Qed.
Lemma last_app_default : forall l (p : R * R), l <> [] -> forall d, last l d = last l p.
Proof. induction l as [|q l IH]; intros p N d; [congruence|]. destruct l; [reflexivity|]. cbn. apply IH. discriminate. Qed.
Lemma max_rising : forall l p, rising (p :: l) -> max_list (map fst (p :: l)) = fst (last l p).
Proof.
  cbn [map max_list]. induction l as [|q l IH]; intros p R; [reflexivity|]. rewrite last_cons. destruct R as (R & R2). cbn. rewrite Rmax_right by lra. now apply IH.
Qed.
Lemma distance_on : forall l E eo e d, rising l -> (distance l E eo e = Some d <-> exists s, on_curve l e s /\ d = s - E * (e - eo)).
Proof.
  intros l E eo e d R. unfold distance. destruct (interp1d l e) as [s|] eqn:H.
  - apply interp_on in H; [|exact R]. split; [intro K; inversion K; eauto|]. intros (s' & H' & ->). now rewrite (on_unique l e s s' R H H').
  - split; [discriminate|]. intros (s & K & _). apply interp_on in K; [congruence|exact R].
Qed.
Lemma first_on : forall p q l, rising (p :: q :: l) -> on_curve (p :: q :: l) (fst p) (snd p).
Proof. intros p q l (R & _). replace (snd p) with (snd p + slope p q * (fst p - fst p)) by ring. apply on_head. lra. Qed.
Lemma last_on : forall l p, rising (p :: l) -> l <> [] -> on_curve (p :: l) (fst (last l p)) (snd (last l p)).
Proof.
  induction l as [|q l IH]; intros p R N; [congruence|]. rewrite last_cons. destruct l as [|r l].
  - cbn. destruct R as (R & _). replace (snd q) with (snd p + slope p q * (fst q - fst p)) by (unfold slope; field; lra). apply on_head. lra.
  - apply on_tail, IH; [now destruct R|discriminate].
Qed.

(** ** The reported stress *)
Lemma offset_concave : forall e1 s1 l eo, rising ((0, 0) :: (e1, s1) :: l) -> concave ((0, 0) :: (e1, s1) :: l) -> 0 < s1 -> 0 < eo ->
  eo < permanent (s1 / e1) (fst (last l (e1, s1))) (snd (last l (e1, s1))) ->
  exists e s, yields_at ((0, 0) :: (e1, s1) :: l) (s1 / e1) eo e s /\ forall r, offset_stress ((0, 0) :: (e1, s1) :: l) eo r <-> r = Some s.
Proof.
  intros e1 s1 l eo R C S1 EO PL. set (c := (0, 0) :: (e1, s1) :: l) in *. set (E := s1 / e1).
  assert (P1 : 0 < e1) by (destruct R as (R & _); exact R). assert (EP : 0 < E) by (apply Rdiv_lt_0_compat; assumption).
  assert (PG : forall x y, permanent E x y = eo - (y - E * (x - eo)) / E) by (intros; unfold permanent; field; lra).
  assert (IE : 0 < / E) by now apply Rinv_0_lt_compat.
  destruct (crossing ((e1, s1) :: l) (0, 0) E eo R C) as (e & s & H & B & ES & A1 & A2).
  - unfold gap. cbn. nra.
  - rewrite last_cons. unfold gap. fold E in PL. rewrite PG in PL. unfold Rdiv in PL. nra.
  - fold c in H, A1, A2. assert (MX : max_list (map fst c) = fst (last ((e1, s1) :: l) (0, 0))) by (apply max_rising; exact R).
    assert (HE : on_curve c e s) by exact H. exists e, s. split.
    + split; [exact H|]. split; [rewrite PG, ES; field; lra|]. split; intros e' s' H' L; rewrite PG; [specialize (A1 e' s' H' L)|specialize (A2 e' s' H' L)]; unfold Rdiv; nra.
    + assert (D0 : distance c E eo 0 = Some (E * eo)).
      { apply distance_on; [exact R|]. exists 0. split; [exact (first_on (0, 0) (e1, s1) l R)|ring]. }
      assert (ND : (e1, s1) :: l <> []) by discriminate. pose proof (last_on ((e1, s1) :: l) (0, 0) R ND) as LO. fold c in LO.
      assert (DL : exists dl, distance c E eo (max_list (map fst c)) = Some dl /\ dl < 0).
      { rewrite MX. eexists. split; [apply distance_on; [exact R|]; eexists; split; [exact LO|reflexivity]|].
        rewrite last_cons. fold E in PL. rewrite PG in PL. unfold Rdiv in PL. nra. }
      destruct DL as (dl & DL & DN). assert (DZ : distance c E eo e = Some 0) by (apply distance_on; [exact R|]; exists s; split; [exact H|lra]).
      assert (UZ : forall x, distance c E eo x = Some 0 -> x = e).
      { intros x Hx. apply distance_on in Hx as (y & Hy & Z); [|exact R]. destruct (Rtotal_order x e) as [L|[L|L]]; [specialize (A1 x y Hy L); lra|exact L|specialize (A2 x y Hy L); lra]. }
      assert (IZ : interp1d c e = Some s) by (apply interp_on; assumption). assert (N0 : 0 < E * eo) by nra.
      intro r. split.
      * intro O. inversion O as [K|s1' K|e1' s1' K NZ K2|e1' s1' x K NZ K2]; subst; cbn in K; try discriminate; inversion K; subst; try lra; fold E in K2.
        -- exfalso. inversion K2 as [K3| | |fa fb F1 F2 F3|]; subst; [rewrite D0, DL in K3; destruct K3; discriminate|]. rewrite D0 in F1. rewrite DL in F2. inversion F1; inversion F2; subst. nra.
        -- inversion K2 as [|F1 F2|fa F1 F2 F3| |fa fb x' F1 F2 F3 F4 F5]; subst.
           ++ rewrite D0 in F1. inversion F1. lra.
           ++ rewrite DL in F3. inversion F3. lra.
           ++ now rewrite (UZ x F5).
      * intros ->. rewrite <- IZ. apply (os_some _ _ e1 s1 e); [reflexivity|lra|]. fold E. apply (bq_zero _ _ _ (E * eo) dl); auto; [nra|]. rewrite MX. exact B.
Qed.
Lemma abs_same : forall l, (forall p, In p l -> 0 <= fst p /\ 0 <= snd p) -> abs_curve l = l.
Proof.
  induction l as [|(a, b) l IH]; intro H; [reflexivity|]. cbn. unfold abs_curve in IH. rewrite IH; [|intros p I; apply H; now right].
  destruct (H (a, b) (or_introl eq_refl)) as (A & B). cbn in A, B. now rewrite !Rabs_pos_eq.
Qed.
Lemma rising_nonneg : forall l p, rising (p :: l) -> forall q, In q (p :: l) -> fst p <= fst q.
Proof.
  induction l as [|q l IH]; intros p R x [<-|I]; try apply Rle_refl; [destruct I|]. destruct R as (R & R2). specialize (IH q R2 x I). lra.
Qed.
(** uniaxial_test reports the same number *)
Lemma yield_offset : forall e1 s1 l eo s, rising ((0, 0) :: (e1, s1) :: l) -> (forall p, In p ((e1, s1) :: l) -> 0 <= snd p) -> 0 < s1 ->
  ((forall r, offset_stress ((0, 0) :: (e1, s1) :: l) eo r <-> r = Some s) -> forall r, yield_of ((0, 0) :: (e1, s1) :: l) eo r <-> r = Some s).
Proof.
  intros e1 s1 l eo s R NN S1 O. set (c := (0, 0) :: (e1, s1) :: l) in *. set (E := s1 / e1).
  assert (P1 : 0 < e1) by (destruct R as (R & _); exact R). assert (EP : 0 < E) by (apply Rdiv_lt_0_compat; assumption).
  assert (AC : abs_curve c = c).
  { apply abs_same. intros p I. split; [exact (rising_nonneg _ _ R p I)|]. destruct I as [<-|I]; [apply Rle_refl|now apply NN]. }
  assert (Y : youngs_of c = Some E). { unfold youngs_of, c. cbn. destruct (Req_EM_T e1 0); [lra|]. unfold E. now rewrite !Rabs_pos_eq by lra. }
  assert (VAL : forall e, brentq (distance c E eo) 0 (max_list (map fst c)) (Some e) -> interp1d c e = Some (E * (e - eo))).
  { intros e K. assert (Z : distance c E eo e = Some 0) by (inversion K; subst; assumption). unfold distance in Z. destruct (interp1d c e); [|discriminate]. inversion Z. f_equal. lra. }
  intro r. split.
  - intro H. inversion H as [E' YE K|E' e YE K]; subst; rewrite Y in YE; inversion YE; subst E'; rewrite AC in K.
    + apply O. apply (os_none _ _ e1 s1); [reflexivity|lra|exact K].
    + rewrite <- (VAL e K). apply O. apply (os_some _ _ e1 s1); [reflexivity|lra|exact K].
  - intros ->. assert (Q : offset_stress c eo (Some s)) by now apply O. remember (Some s) as rr eqn:RR. destruct Q as [K|s1' K|e1' s1' K NZ K2|e1' s1' e K NZ K2]; try discriminate.
    cbn in K. inversion K; subst e1' s1'. fold E in K2. rewrite (VAL e K2). apply (yo_val _ _ E e Y). now rewrite AC.
Qed.
Lemma offset_never : forall e1 s1 l eo, rising ((0, 0) :: (e1, s1) :: l) -> 0 < s1 -> 0 < eo ->
  permanent (s1 / e1) (fst (last l (e1, s1))) (snd (last l (e1, s1))) < eo -> forall r, offset_stress ((0, 0) :: (e1, s1) :: l) eo r <-> r = None.
Proof.
  intros e1 s1 l eo R S1 EO PL. set (c := (0, 0) :: (e1, s1) :: l) in *. set (E := s1 / e1) in *.
  assert (P1 : 0 < e1) by (destruct R as (R & _); exact R). assert (EP : 0 < E) by (apply Rdiv_lt_0_compat; assumption).
  assert (PG : forall x y, permanent E x y = eo - (y - E * (x - eo)) / E) by (intros; unfold permanent; field; lra).
  assert (IE : 0 < / E) by now apply Rinv_0_lt_compat.
  assert (MX : max_list (map fst c) = fst (last ((e1, s1) :: l) (0, 0))) by (apply max_rising; exact R).
  assert (D0 : distance c E eo 0 = Some (E * eo)).
  { apply distance_on; [exact R|]. exists 0. split; [exact (first_on (0, 0) (e1, s1) l R)|ring]. }
  assert (ND : (e1, s1) :: l <> []) by discriminate. pose proof (last_on ((e1, s1) :: l) (0, 0) R ND) as LO. fold c in LO.
  assert (DL : exists dl, distance c E eo (max_list (map fst c)) = Some dl /\ 0 < dl).
  { rewrite MX. eexists. split; [apply distance_on; [exact R|]; eexists; split; [exact LO|reflexivity]|]. rewrite last_cons. rewrite PG in PL. unfold Rdiv in PL. nra. }
  destruct DL as (dl & DL & DN). assert (N0 : 0 < E * eo) by nra. assert (NB : brentq (distance c E eo) 0 (max_list (map fst c)) None) by (apply (bq_same _ _ _ (E * eo) dl); auto; nra).
  intro r. split.
  - intro O. inversion O as [K|s1' K|e1' s1' K NZ K2|e1' s1' x K NZ K2]; subst; try reflexivity. exfalso. cbn in K. inversion K; subst e1' s1'. fold E in K2.
    inversion K2 as [|F1 F2|fa F1 F2 F3| |fa fb x' F1 F2 F3 F4 F5]; subst.
    + rewrite D0 in F1. inversion F1. lra.
    + rewrite DL in F3. inversion F3. lra.
    + rewrite D0 in F1. rewrite DL in F2. inversion F1; inversion F2; subst. nra.
  - intros ->. apply (os_none _ _ e1 s1); [reflexivity|lra|exact NB].
Qed.
(** whatever the curve, a finite result is on it, at the offset *)
Lemma offset_sound : forall e0 s0 e1 s1 l eo s, rising ((e0, s0) :: (e1, s1) :: l) -> s1 / e1 <> 0 -> offset_stress ((e0, s0) :: (e1, s1) :: l) eo (Some s) ->
  exists e, on_curve ((e0, s0) :: (e1, s1) :: l) e s /\ permanent (s1 / e1) e s = eo.
Proof.
  intros e0 s0 e1 s1 l eo s R EN O. inversion O as [ | | |e1' s1' e K NZ K2 IE]. cbn in K. inversion K; subst e1' s1'. exists e. split; [now apply interp_on|].
  assert (Z : distance ((e0, s0) :: (e1, s1) :: l) (s1 / e1) eo e = Some 0) by (inversion K2; subst; assumption).
  unfold distance in Z. rewrite IE in Z. inversion Z. unfold permanent. replace s with (s1 / e1 * (e - eo)) by lra. field. split; [exact NZ|]. intro Q. apply EN. subst. unfold Rdiv. ring.
Qed.
(** compression: strains below zero *)
Lemma yield_compression : forall e1 s1 l offset r, e1 < 0 -> s1 <> 0 -> (forall p, In p l -> fst p <= 0) -> 0 < offset -> yield_of ((0, 0) :: (e1, s1) :: l) offset r -> r = None.
Proof.
  intros e1 s1 l offset r E1 S1 NL OF H. set (c := (0, 0) :: (e1, s1) :: l) in *.
  assert (MX : max_list (map fst c) = 0).
  { cbn. rewrite Rmax_left by lra. clear - NL. induction l as [|q l IH]; [reflexivity|]. cbn. rewrite Rmax_left; [apply IH; intros p I; apply NL; now right|]. apply NL. now left. }
  inversion H as [|E e Y K]; [reflexivity|]. exfalso. rewrite MX in K.
  assert (EP : 0 < E). { unfold youngs_of, c in Y. cbn in Y. destruct (Req_EM_T e1 0); [lra|]. inversion Y. apply Rdiv_lt_0_compat; apply Rabs_pos_lt; lra. }
  assert (D : forall d, distance (abs_curve c) E offset 0 = Some d -> 0 < d).
  { intros d Hd. unfold distance in Hd. destruct (interp1d (abs_curve c) 0) as [y|] eqn:I; [|discriminate]. inversion Hd.
    assert (0 <= y); [|nra]. clear - I. unfold interp1d in I.
    destruct (sort_curve (abs_curve c)) as [|p q] eqn:SC; [discriminate|]. destruct (Rlt_dec 0 (fst p)); [discriminate|].
    assert (NN : forall x, In x (p :: q) -> 0 <= fst x /\ 0 <= snd x).
    { rewrite <- SC. intros x Hx. assert (J : forall l x, In x (sort_curve l) -> In x l).
      { clear. induction l as [|p l IH]; intros x H; [destruct H|]. cbn in H. assert (G : forall l x, In x (insert_point p l) -> x = p \/ In x l).
        { clear. induction l as [|q l IH]; intros x H; cbn in H; [destruct H as [<-|[]]; now left|]. destruct (Rlt_dec (fst q) (fst p)).
          - destruct H as [<-|H]; [right; now left|]. destruct (IH x H); [now left|right; now right].
          - destruct H as [<-|H]; [now left|now right]. }
        destruct (G _ _ H) as [->|H']; [now left|right; now apply IH]. }
      apply J in Hx. unfold abs_curve in Hx. apply in_map_iff in Hx as (z & <- & _). cbn. split; apply Rabs_pos. }
    destruct q as [|q b]; [discriminate|]. cbn in I. destruct (NN p (or_introl eq_refl)) as (A & B). destruct (NN q (or_intror (or_introl eq_refl))) as (A2 & B2).
    destruct (Rle_dec 0 (fst q)); [|lra]. inversion I. assert (fst p = 0) by lra. replace (_ + _) with (snd p); [exact B|]. rewrite H. unfold Rdiv. ring. }
  inversion K as [|F1 F2|fa F1 F2 F3| |fa fb x' F1 F2 F3 F4 F5]; subst.
  - apply D in F1. lra.
  - apply D in F3. lra.
  - assert (fa = fb) by congruence. subst. nra.
Qed.
