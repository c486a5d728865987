(** Concrete curves, and the curve recorded by uniaxial_test. *)
From Coq Require Import ZArith List Lra Lia.
From Verif Require Import Base YldModel YldSpec YldProofs.
From Coq Require Import List.
Import ListNotations.
Open Scope R_scope.

(** modulus 100, yielding at strain 1, hardening afterwards *)
Definition steel : curve := [(0, 0); (1, 100); (2, 150); (10, 160)].
Lemma steel_rising : rising steel. Proof. cbn. lra. Qed.
Lemma steel_concave : concave steel. Proof. cbn. unfold slope. cbn. lra. Qed.
Lemma steel_yields : exists s, (forall r, offset_stress steel 2 r <-> r = Some s) /\ (forall r, yield_of steel 2 r <-> r = Some s) /\ exists e, yields_at steel (100 / 1) 2 e s.
Proof.
  destruct (offset_concave 1 100 [(2, 150); (10, 160)] 2 steel_rising steel_concave) as (e & s & Y & O); [lra|lra|unfold permanent; cbn; lra|].
  exists s. split; [exact O|]. split; [|now exists e]. apply (yield_offset 1 100 _ 2 s steel_rising); [|lra|exact O].
  intros p [<-|[<-|[<-|[]]]]; cbn; lra.
Qed.
Lemma yield_concave : forall e1 s1 l eo, rising ((0, 0) :: (e1, s1) :: l) -> concave ((0, 0) :: (e1, s1) :: l) -> 0 < s1 -> 0 < eo -> (forall p, In p ((e1, s1) :: l) -> 0 <= snd p) ->
  eo < permanent (s1 / e1) (fst (last l (e1, s1))) (snd (last l (e1, s1))) ->
  exists e s, yields_at ((0, 0) :: (e1, s1) :: l) (s1 / e1) eo e s /\ forall r, yield_of ((0, 0) :: (e1, s1) :: l) eo r <-> r = Some s.
Proof.
  intros e1 s1 l eo R C S1 EO NN PL. destruct (offset_concave e1 s1 l eo R C S1 EO PL) as (e & s & Y & O). exists e, s. split; [exact Y|].
  now apply yield_offset.
Qed.
Lemma steel_not_yet : forall r, offset_stress steel 9 r <-> r = None.
Proof. apply (offset_never 1 100 [(2, 150); (10, 160)]); [exact steel_rising|lra|lra|unfold permanent; cbn; lra]. Qed.

(** a curve that yields, reloads elastically and yields again: two answers *)
Definition twice : curve := [(0, 0); (1, 1); (2, 1); (3, 2); (4, 2)].
Lemma twice_rising : rising twice. Proof. cbn. lra. Qed.
Lemma twice_on : on_curve twice 0 0 /\ on_curve twice 2 1 /\ on_curve twice 3 2 /\ on_curve twice 4 2.
Proof.
  split; [|split; [|split]].
  - exists [], (0, 0), (1, 1), [(2, 1); (3, 2); (4, 2)]. unfold slope. cbn. repeat split; lra.
  - exists [(0, 0)], (1, 1), (2, 1), [(3, 2); (4, 2)]. unfold slope. cbn. repeat split; lra.
  - exists [(0, 0); (1, 1)], (2, 1), (3, 2), [(4, 2)]. unfold slope. cbn. repeat split; lra.
  - exists [(0, 0); (1, 1); (2, 1)], (3, 2), (4, 2), []. unfold slope. cbn. repeat split; lra.
Qed.
Lemma twice_two : offset_stress twice 1 (Some 1) /\ offset_stress twice 1 (Some 2).
Proof.
  destruct twice_on as (O0 & O2 & O3 & O4).
  assert (MX : max_list (map fst twice) = 4) by exact (max_rising _ _ twice_rising).
  assert (D : forall e s d, on_curve twice e s -> d = s - 1 / 1 * (e - 1) -> distance twice (1 / 1) 1 e = Some d) by (intros; apply distance_on; [exact twice_rising|eauto]).
  assert (Z : forall e s, on_curve twice e s -> 0 <= e <= 4 -> 0 = s - 1 / 1 * (e - 1) -> offset_stress twice 1 (Some s)).
  { intros e s O B ZE. replace (Some s) with (interp1d twice e) by (apply interp_on; [exact twice_rising|exact O]). apply (os_some _ _ 1 1 e); [reflexivity|lra|]. rewrite MX.
    apply (bq_zero _ _ _ 1 (-1)); [apply (D 0 0); [exact O0|lra]|apply (D 4 2); [exact O4|lra]|lra|exact B|apply (D e s); [exact O|exact ZE]]. }
  split; [apply (Z 2 1); [exact O2|lra|lra]|apply (Z 3 2); [exact O3|lra|lra]].
Qed.
(** the same test in compression *)
Definition pressed : curve := [(0, 0); (-1, -100); (-2, -150); (-10, -160)].
Lemma pressed_abs : abs_curve pressed = steel.
Proof.
  unfold pressed, steel. cbn. rewrite Rabs_R0. repeat (rewrite Rabs_left by lra).
  replace (- -1) with 1 by lra. replace (- -100) with 100 by lra. replace (- -2) with 2 by lra. replace (- -150) with 150 by lra. replace (- -10) with 10 by lra. replace (- -160) with 160 by lra. reflexivity.
Qed.
Lemma pressed_inf : forall r, yield_of pressed 2 r -> r = None.
Proof. intros r H. apply (yield_compression (-1) (-100) [(-2, -150); (-10, -160)] 2 r); [lra|intro; lra| |lra|exact H]. intros p [<-|[<-|[]]]; cbn; lra. Qed.
Lemma compression_lost : ~ (forall l offset s, (forall r, yield_of (abs_curve l) offset r <-> r = Some s) -> forall r, yield_of l offset r -> r = Some s).
Proof.
  intro H. destruct steel_yields as (s & _ & Y & _). rewrite <- pressed_abs in Y.
  assert (N : yield_of pressed 2 None).
  { apply (yo_inf _ _ (100 / 1)).
    - cbn. destruct (Req_EM_T (-1) 0); [lra|]. repeat (rewrite Rabs_left by lra). replace (- -1) with 1 by lra. replace (- -100) with 100 by lra. reflexivity.
    - rewrite pressed_abs. apply (bq_same _ _ _ 200 200); [| |lra].
      + apply distance_on; [exact steel_rising|]. exists 0. split; [exact (first_on _ _ _ steel_rising)|unfold Rdiv; rewrite Rinv_1; lra].
      + replace (max_list (map fst pressed)) with 0; [|cbn; rewrite (Rmax_left 0 (-1)) by lra; rewrite (Rmax_left 0 (-2)) by lra; rewrite (Rmax_left 0 (-10)) by lra; reflexivity].
        apply distance_on; [exact steel_rising|]. exists 0. split; [exact (first_on _ _ _ steel_rising)|lra]. }
  specialize (H pressed 2 s Y None N). discriminate.
Qed.
Lemma offset_ambiguous : ~ (forall l eo r r', rising l -> 0 < eo -> offset_stress l eo r -> offset_stress l eo r' -> r = r').
Proof. intro H. destruct twice_two as (A & B). specialize (H twice 1 _ _ twice_rising Rlt_0_1 A B). inversion H. lra. Qed.
Lemma yield_never : forall e1 s1 l eo, rising ((0, 0) :: (e1, s1) :: l) -> 0 < s1 -> 0 < eo -> (forall p, In p ((e1, s1) :: l) -> 0 <= snd p) ->
  permanent (s1 / e1) (fst (last l (e1, s1))) (snd (last l (e1, s1))) < eo -> forall r, yield_of ((0, 0) :: (e1, s1) :: l) eo r <-> r = None.
Proof.
  intros e1 s1 l eo R S1 EO NN PL. pose proof (offset_never e1 s1 l eo R S1 EO PL) as O.
  set (c := (0, 0) :: (e1, s1) :: l) in *. assert (P1 : 0 < e1) by (destruct R as (R & _); exact R).
  assert (AC : abs_curve c = c).
  { apply abs_same. intros p I. split; [exact (rising_nonneg _ _ R p I)|]. destruct I as [<-|I]; [apply Rle_refl|now apply NN]. }
  assert (YE : youngs_of c = Some (s1 / e1)) by (cbn; destruct (Req_EM_T e1 0); [lra|]; now rewrite !Rabs_pos_eq by lra).
  intro r. split.
  - intros [E YE' B|E e YE' B]; [reflexivity|]. rewrite YE in YE'. inversion YE'; subst E. rewrite AC in B.
    assert (Z : offset_stress c eo (interp1d c e)) by (apply (os_some _ _ e1 s1 e); [reflexivity|lra|exact B]).
    apply O in Z. assert (D : distance c (s1 / e1) eo e = Some 0) by (inversion B; subst; assumption). unfold distance in D. rewrite Z in D. discriminate.
  - intros ->. assert (Z : offset_stress c eo None) by now apply O. inversion Z as [K|s K|e' s' K NZ B|e' s' e K NZ B IE].
    + discriminate.
    + cbn in K. inversion K. lra.
    + cbn in K. inversion K; subst e' s'. apply (yo_inf _ _ (s1 / e1) YE). now rewrite AC.
    + cbn in K. inversion K; subst e' s'. assert (D : distance c (s1 / e1) eo e = Some 0) by (inversion B; subst; assumption). unfold distance in D. rewrite IE in D. discriminate.
Qed.
