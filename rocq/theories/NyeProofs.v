(** The Nye tensor in the store of a single crystal. *)
From Coq Require Import List Arith Lia Lra FunctionalExtensionality.
From Verif Require Import Base.
From Verif Require Import Diff RotModel TensorModel CpModel SlipModel ScModel NyeModel NyeSpec.
Import ListNotations.

Lemma get_q_pack use q r a h : get_q (pack use q r a h) 0 = q.
Proof. destruct q; reflexivity. Qed.
Lemma get_state_pack use q r a h : get_state use (pack use q r a h) = h.
Proof.
  apply functional_extensionality. intros i. unfold get_state, pack. destruct (Nat.ltb_spec (n_static use + i) 4); [destruct use; cbn [n_static] in *; lia|].
  destruct (Nat.ltb_spec (n_static use + i) 8); [destruct use; cbn [n_static] in *; lia|].
  replace (n_static use + i - n_static use)%nat with i by lia. destruct use; cbn [andb n_static]; [|reflexivity]. destruct (Nat.ltb_spec (17 + i) 17); [lia|reflexivity].
Qed.
Lemma get_nye_pack q r a h i : (i < 9)%nat -> pack true q r a h (8 + i)%nat = a i.
Proof.
  intros Hi. unfold pack. destruct (Nat.ltb_spec (8 + i) 4); [lia|]. destruct (Nat.ltb_spec (8 + i) 8); [lia|]. cbn [andb]. destruct (Nat.ltb_spec (8 + i) 17); [|lia]. f_equal. lia.
Qed.
Lemma nye_q use hist a : get_q (update_nye use hist a) 0 = get_q hist 0.
Proof. destruct use; reflexivity. Qed.
Lemma nye_state use hist a : get_state use (update_nye use hist a) = get_state use hist.
Proof.
  destruct use; [|reflexivity]. apply functional_extensionality. intros i. unfold get_state, update_nye. cbn [n_static]. destruct (Nat.leb_spec 8 (17 + i)), (Nat.ltb_spec (17 + i) 17); cbn [andb]; (lia || reflexivity).
Qed.
Lemma nye_set hist a i : (i < 9)%nat -> update_nye true hist a (8 + i)%nat = a i.
Proof. intros Hi. unfold update_nye. destruct (Nat.leb_spec 8 (8 + i)), (Nat.ltb_spec (8 + i) 17); cbn [andb]; try lia. f_equal. lia. Qed.
Lemma active_q hist q : get_q (store_active hist q) 0 = q.
Proof. destruct q; reflexivity. Qed.
Lemma active_rest hist q i : (8 <= i)%nat -> store_active hist q i = hist i.
Proof. intros Hi. unfold store_active. destruct (Nat.ltb_spec i 4); [lia|]. destruct (Nat.ltb_spec i 8); [lia|reflexivity]. Qed.
Lemma active_state use hist q : get_state use (store_active hist q) = get_state use hist.
Proof. apply functional_extensionality. intros i. unfold get_state. apply active_rest. destruct use; cbn; lia. Qed.
Lemma get_nye_same x y : same_nye x y -> get_nye true (pt_hist x) = Some (nine (id_nye y)).
Proof. intros H. unfold get_nye, nine. f_equal. apply functional_extensionality. intros i. destruct (Nat.ltb_spec i 9); [apply H; lia|reflexivity]. Qed.

(** one step *)
Lemma step_same fuel lsolve inv m o x y l : sg_use m = true -> same_results true x y -> same_nye x y ->
  both (fun x' y' => same_results true x' y' /\ (forall i, (i < 9)%nat -> pt_hist x' (8 + i)%nat = 0)) (nstep fuel lsolve inv m o x l) (ideal_step fuel lsolve inv m o y l).
Proof.
  intros Hu (E1 & E2 & E3 & E4 & E5 & E6 & E7 & E8 & E9) Hn. unfold nstep, ideal_step. rewrite Hu, (get_nye_same x y Hn), E1, E2, E3, E4, E5, E6, E7, E8, E9.
  destruct (sc_update _ _ _ _ _ _) as [[r|]|]; cbn [both]; [|exact I|exact I]. split.
  - unfold same_results. cbn [pt_s pt_hist pt_u pt_p pt_d pt_w pt_T pt_t id_s id_h id_q id_u id_p id_d id_w id_T id_t]. rewrite get_state_pack, get_q_pack. repeat split.
  - intros i Hi. cbn [pt_hist]. rewrite get_nye_pack by exact Hi. reflexivity.
Qed.
Lemma same_with_nye x y a : same_results true x y -> same_results true (with_hist x (update_nye true (pt_hist x) a)) (ideal_nye y a) /\ same_nye (with_hist x (update_nye true (pt_hist x) a)) (ideal_nye y a).
Proof.
  intros H. split; [|intros i Hi; exact (nye_set (pt_hist x) a i Hi)]. unfold same_results in *. cbn [with_hist pt_s pt_hist pt_u pt_p pt_d pt_w pt_T pt_t ideal_nye id_s id_h id_q id_u id_p id_d id_w id_T id_t]. rewrite nye_state, nye_q. exact H.
Qed.
Lemma same_with_active x y q : same_results true x y -> same_results true (with_hist x (store_active (pt_hist x) q)) (ideal_active y q).
Proof.
  intros H. unfold same_results in *. cbn [with_hist pt_s pt_hist pt_u pt_p pt_d pt_w pt_T pt_t ideal_active id_s id_h id_q id_u id_p id_d id_w id_T id_t]. rewrite active_state, active_q. tauto.
Qed.
Lemma same_nye_active x y q : same_nye x y -> same_nye (with_hist x (store_active (pt_hist x) q)) (ideal_active y q).
Proof. intros H i Hi. cbn [with_hist pt_hist ideal_active id_nye]. rewrite active_rest by lia. exact (H i Hi). Qed.

(** the exact behaviour: as if the tensor were cleared after every step *)
Lemma run_clears fuel lsolve inv m o : sg_use m = true -> forall ops x y, same_results true x y -> same_nye x y ->
  both (fun x' y' => same_results true x' y' /\ same_nye x' y') (nrun fuel lsolve inv m o ops x) (ideal_run fuel lsolve inv m o (clears ops) y).
Proof.
  intros Hu. induction ops as [|[a|q|l] ops IH]; intros x y H Hn; cbn [nrun clears ideal_run].
  - cbn. split; assumption.
  - rewrite Hu. destruct (same_with_nye x y a H) as [A B]. exact (IH _ _ A B).
  - exact (IH _ _ (same_with_active x y q H) (same_nye_active x y q Hn)).
  - pose proof (step_same fuel lsolve inv m o x y l Hu H Hn) as HS. destruct (nstep _ _ _ _ _ x l) as [x'|], (ideal_step _ _ _ _ _ y l) as [y'|]; cbn [both] in HS; try contradiction; [|exact I].
    destruct HS as [HS Hz]. apply IH; [exact HS|]. intros i Hi. rewrite Hz by exact Hi. reflexivity.
Qed.
(** as expected when the tensor is set before every step *)
Lemma run_each fuel lsolve inv m o : sg_use m = true -> forall ops b x y, sets_each b ops -> same_results true x y -> (b = true -> same_nye x y) ->
  both (same_results true) (nrun fuel lsolve inv m o ops x) (ideal_run fuel lsolve inv m o ops y).
Proof.
  intros Hu. induction ops as [|[a|q|l] ops IH]; intros b x y Hs H Hn; cbn [nrun ideal_run]; cbn [sets_each] in Hs.
  - exact H.
  - rewrite Hu. destruct (same_with_nye x y a H) as [A B]. exact (IH true _ _ Hs A (fun _ => B)).
  - exact (IH b _ _ Hs (same_with_active x y q H) (fun E => same_nye_active x y q (Hn E))).
  - destruct Hs as [-> Hs]. pose proof (step_same fuel lsolve inv m o x y l Hu H (Hn eq_refl)) as HS.
    destruct (nstep _ _ _ _ _ x l) as [x'|], (ideal_step _ _ _ _ _ y l) as [y'|]; cbn [both] in HS; try contradiction; [|exact I].
    apply (IH false); [exact Hs|exact (proj1 HS)|discriminate].
Qed.
(** no effect when no law uses it *)
Lemma run_unused fuel lsolve inv m o : sg_use m = false -> forall ops x, nrun fuel lsolve inv m o ops x = nrun fuel lsolve inv m o (no_nye ops) x.
Proof.
  intros Hu. induction ops as [|[a|q|l] ops IH]; intros x; cbn [nrun no_nye]; [reflexivity| |apply IH|].
  - rewrite Hu. cbn [update_nye]. rewrite IH. destruct x; reflexivity.
  - destruct (nstep _ _ _ _ _ x l); [apply IH|reflexivity].
Qed.
(** after the run: the tensor, if set since the last step, else zero *)
Lemma nye_after_step fuel lsolve inv m o x l y : nstep fuel lsolve inv m o x l = Some y -> sg_use m = true -> forall i, (i < 9)%nat -> pt_hist y (8 + i)%nat = 0.
Proof.
  intros H Hu i Hi. unfold nstep in H. rewrite Hu in H. destruct (sc_update _ _ _ _ _ _) as [[r|]|]; try discriminate H. injection H as <-. cbn [pt_hist]. rewrite get_nye_pack by exact Hi. reflexivity.
Qed.
(** strengths *)
Lemma slaw_zero s T a : (forall i, (i < 9)%nat -> a i = 0) -> slaw_nye s T (Some a) = slaw_nye s T None.
Proof.
  intros H. assert (N : norm9 a = 0).
  { unfold norm9, contract9. transitivity (sqrt 0); [|exact sqrt_0]. f_equal. rewrite (rsum_ext 9 _ (fun _ => 0)); [apply rsum_0|]. intros i Hi. rewrite (H i Hi). ring. }
  destruct s as [k|k|]; cbn [slaw_nye]; [|unfold linear_nye; rewrite N; ring|reflexivity].
  unfold voce_nye. destruct (voce_use_nye k); [|reflexivity]. rewrite N, sqrt_0. ring.
Qed.
Lemma harden_zero h st T a p : (forall i, (i < 9)%nat -> a i = 0) -> harden_tau h st T (Some a) p = harden_tau h st T None p.
Proof.
  intros H. unfold harden_tau. f_equal. induction (hd_parts h) as [|s l IH]; [reflexivity|]. cbn [map fold_right]. rewrite IH, (slaw_zero s T a H). reflexivity.
Qed.
Lemma rule_zero n hs st T a : (forall i, (i < 9)%nat -> a i = 0) -> rule_strength n hs st T (Some a) = rule_strength n hs st T None.
Proof.
  intros H. unfold rule_strength. f_equal. induction hs as [|h l IH]; [reflexivity|]. cbn [map fold_right]. rewrite IH. f_equal. apply rsum_ext. intros p _. exact (harden_zero h st T a p H).
Qed.
Fixpoint inel_zero (m : inel) (st : vec) (T : R) (a : vec) (H : forall i, (i < 9)%nat -> a i = 0) {struct m} : inel_strength m st T (Some a) = inel_strength m st T None.
Proof.
  destruct m as [n hs| |A n|l]; cbn [inel_strength]; [exact (rule_zero n hs st T a H)|reflexivity|reflexivity|].
  generalize 0 as z. induction l as [|x r IH]; intros z; [reflexivity|]. rewrite (inel_zero x st T a H). apply IH.
Qed.
Lemma strength_after fuel lsolve inv m o x l y T : nstep fuel lsolve inv m o x l = Some y -> sg_strength m (pt_hist y) T = inel_strength (sg_inel m) (get_state (sg_use m) (pt_hist y)) T None.
Proof.
  intros H. unfold sg_strength. destruct (sg_use m) eqn:Hu; [|reflexivity]. cbn [get_nye]. apply inel_zero. intros i Hi. destruct (Nat.ltb_spec i 9); [|lia]. exact (nye_after_step fuel lsolve inv m o x l y H Hu i Hi).
Qed.
Lemma strength_set m hist a T : sg_use m = true -> sg_strength m (update_nye true hist a) T = inel_strength (sg_inel m) (get_state true hist) T (Some (nine a)).
Proof.
  intros Hu. unfold sg_strength. rewrite Hu, nye_state. do 2 f_equal. unfold get_nye. f_equal. apply functional_extensionality. intros i. unfold nine. destruct (Nat.ltb_spec i 9); [apply nye_set; lia|reflexivity].
Qed.
Lemma update_elsewhere use hist a i : ~ (8 <= i < 17)%nat -> update_nye use hist a i = hist i.
Proof. intros H. unfold update_nye. destruct use; [|reflexivity]. destruct (Nat.leb_spec 8 i), (Nat.ltb_spec i 17); cbn [andb]; (reflexivity || lia). Qed.
Lemma rsum_one n : rsum n (fun _ => 1) = INR n.
Proof. induction n as [|n IH]; [reflexivity|]. rewrite S_INR, <- IH. cbn [rsum]. reflexivity. Qed.
(** one Voce law with one strength: the tensor adds k sqrt|a| to the reported strength *)
Lemma voce_strength n tau k st T a : (0 < n)%nat -> k 0 <> 0 ->
  rule_strength n [{| hd_tau := tau; hd_parts := [SVoce k] |}] st T (Some a) = rule_strength n [{| hd_tau := tau; hd_parts := [SVoce k] |}] st T None + k T * sqrt (norm9 a).
Proof.
  intros Hn Hk. assert (HN : INR n <> 0) by (apply not_0_INR; lia). unfold rule_strength. cbn [map fold_right]. rewrite rsum_one.
  assert (E : rsum n (harden_tau {| hd_tau := tau; hd_parts := [SVoce k] |} st T (Some a)) = rsum n (harden_tau {| hd_tau := tau; hd_parts := [SVoce k] |} st T None) + INR n * (k T * sqrt (norm9 a))).
  { rewrite <- rsum_one. rewrite <- rsum_scal_r. rewrite <- rsum_plus. apply rsum_ext. intros p _. unfold harden_tau. cbn [hd_tau hd_parts map fold_right slaw_nye]. unfold voce_nye, voce_use_nye. destruct (Req_EM_T (k 0) 0); [contradiction|]. ring. }
  rewrite E. field. lra.
Qed.

(** which models use the tensor *)
Lemma slaw_use_spec s : slaw_use s = true <-> law_uses s.
Proof.
  destruct s as [k|k|]; cbn; [|split; auto|split; [discriminate|contradiction]].
  unfold voce_use_nye. destruct (Req_EM_T (k 0) 0); split; intros; auto; try discriminate; contradiction.
Qed.
Lemma inel_use_has m : inel_use m = true -> exists s, has_law m s /\ law_uses s.
Proof.
  revert m. fix IH 1. intros [n hs| |A n|l]; cbn [inel_use]; try discriminate.
  - intros H. apply existsb_exists in H as (h & Hh & H). unfold harden_use in H.
    apply existsb_exists in H as (s & Hs & H). apply slaw_use_spec in H. exists s. split; auto. now apply hl_asaro with h.
  - intros H. assert (X : exists x s, In x l /\ has_law x s /\ law_uses s).
    { revert H. induction l as [|x r IHl]; [discriminate|]. destruct (inel_use x) eqn:E.
      - intros _. destruct (IH x E) as (s & H1 & H2). exists x, s. split; [now left|auto].
      - intros H. destruct (IHl H) as (y & s & Hy & H1 & H2). exists y, s. split; [now right|auto]. }
    destruct X as (x & s & Hx & H1 & H2). exists s. split; auto. now apply hl_comb with x.
Qed.
Lemma has_inel_use m s : has_law m s -> law_uses s -> inel_use m = true.
Proof.
  intros H U. induction H as [n hs h s Hh Hs|l m s Hm H IH]; cbn [inel_use].
  - apply existsb_exists. exists h. split; auto. unfold harden_use. apply existsb_exists. exists s. split; auto. now apply slaw_use_spec.
  - specialize (IH U). clear H. induction l as [|x r IHl]; [contradiction|]. destruct Hm as [->|Hm]; [now rewrite IH|].
    destruct (inel_use x); auto.
Qed.
Lemma unused_nye s T a b : slaw_use s = false -> slaw_nye s T a = slaw_nye s T b.
Proof. destruct s as [k|k|]; cbn; auto; [|discriminate]. intros H. unfold voce_nye. now rewrite H. Qed.
Lemma existsb_none {A} (f : A -> bool) l x : existsb f l = false -> In x l -> f x = false.
Proof. intros H I. destruct (f x) eqn:E; auto. rewrite <- H. symmetry. apply existsb_exists. eauto. Qed.
Lemma unused_tau h st T a b p : harden_use h = false -> harden_tau h st T a p = harden_tau h st T b p.
Proof.
  intros H. unfold harden_tau. f_equal. f_equal. apply map_ext_in. intros s Hs. apply unused_nye. exact (existsb_none _ _ _ H Hs).
Qed.
Lemma unused_strength m st T a b : inel_use m = false -> inel_strength m st T a = inel_strength m st T b.
Proof.
  revert m. fix IH 1. intros [n hs| |A n|l]; cbn [inel_use inel_strength]; auto.
  - intros H. unfold rule_strength. f_equal. f_equal. apply map_ext_in. intros h Hh.
    apply rsum_ext. intros i _. apply unused_tau. exact (existsb_none _ _ _ H Hh).
  - generalize 0. induction l as [|x r IHl]; auto. intros c H. destruct (inel_use x) eqn:E; [discriminate|].
    rewrite (IH x E). apply (IHl _ H).
Qed.
