(** Concrete composed models: their stores, and the refutations. *)
From Coq Require Import String List Lia Lra.
From Verif Require Import Base HistModel LayModel LaySpec LayProofs.
From Coq Require Import List.
Import ListNotations.
Open Scope string_scope.
Open Scope list_scope.

(** isotropic hardening, and a hardening that starts at one half *)
Definition alpha (a : R) : var := mkVar "alpha" TScalar [a].
Definition iso : smodel := SLeaf [alpha 0].
Definition iso1 (a : R) : smodel := SLeaf [alpha a].
Definition chab : smodel := SLeaf [alpha 0; mkVar "backstress_0" TSymmetric (zeros 6)].
Ltac nd := repeat (constructor; [cbn; intuition discriminate|]); constructor.
Lemma iso_ok : forall a, no_regime (iso1 a) /\ well_formed (iso1 a) /\ distinct (iso1 a) /\ creep_on_stateless (iso1 a).
Proof. intro a. repeat split; [repeat constructor|unfold distinct; cbn; nd]. Qed.
Lemma damaged_ok : forall d a, let m := SDamage d (iso1 a) in no_regime m /\ well_formed m /\ distinct m /\ creep_on_stateless m.
Proof. intros d a m. repeat split; [repeat constructor|unfold distinct; cbn; nd]. Qed.
Lemma creep_elastic_ok : let m := SDamage (1 / 10) (SCreep (SLeaf [])) in no_regime m /\ well_formed m /\ distinct m /\ creep_on_stateless m.
Proof. intro m. repeat split; [constructor|unfold distinct; cbn; nd]. Qed.
Lemma creep_ok : forall a, let m := SCreep (iso1 a) in no_regime m /\ well_formed m /\ distinct m.
Proof. intros a m. repeat split; [repeat constructor|unfold distinct; cbn; nd]. Qed.
(** names *)
Lemma names_wrong : exists m, no_regime m /\ well_formed m /\ distinct m /\ names_of m = HOk ["small_stress"; "alpha"; "plastic_strain"] /\ map v_name (slots m) = ["plastic_strain"; "alpha"].
Proof.
  exists (SCreep iso). destruct (creep_ok 0) as (A & B & C). repeat split; assumption.
Qed.
(** start *)
Lemma start_wrong : exists m h, no_regime m /\ well_formed m /\ distinct m /\ init_store m "" = HOk h /\ seen m (hdata h) = [cells [1 / 2; 0; 0; 0; 0; 0]; cells [0]] /\ ~ right_start m (hdata h).
Proof.
  exists (SCreep (iso1 (1 / 2))). destruct (creep_ok (1 / 2)) as (A & B & C). eexists. split; [exact A|]. split; [exact B|]. split; [exact C|]. split; [now apply store_build|].
  split; [reflexivity|]. unfold right_start. cbn. intro E. injection E as E _. lra.
Qed.
(** the regime model counts its static variable as state *)
Lemma regime_state : exists m, top_regime m /\ well_formed m /\ distinct m /\ nstate m = HOk 7%nat /\ nstore m = HOk 7%nat.
Proof.
  exists (SRegime iso [iso]). destruct (iso_ok 0) as (A & B & C & D). repeat split; assumption.
Qed.
(** models around it read past the end *)
Lemma regime_inside_reads : forall d0, exists m n s, (m = SCreep (SRegime iso [iso]) \/ m = SDamage d0 (SRegime iso [iso])) /\ distinct m /\ nreads 0 m = HOk n /\ nstore m = HOk s /\ (nstatic + n = s + 6)%nat.
Proof.
  intro d0. exists (SDamage d0 (SRegime iso [iso])), 8%nat, 8%nat. destruct (damaged_ok d0 0) as (A & B & C & D). repeat split; try assumption. now right.
Qed.
Lemma creep_regime_reads : exists n s, nreads 0 (SCreep (SRegime iso [iso])) = HOk n /\ nstore (SCreep (SRegime iso [iso])) = HOk s /\ (nstatic + n = s + 6)%nat.
Proof. exists 13%nat, 13%nat. destruct (creep_ok 0) as (A & B & C). repeat split. Qed.
(** the initial damage is lost *)
Lemma regime_inside_start : forall d0, d0 <> 0 -> exists h, init_store (SDamage d0 (SRegime iso [iso])) "" = HOk h /\ seen (SDamage d0 (SRegime iso [iso])) (hdata h) = [cells [0]; cells [0]]
  /\ ~ right_start (SDamage d0 (SRegime iso [iso])) (hdata h).
Proof.
  intros d0 H. eexists. split; [reflexivity|]. split; [reflexivity|]. unfold right_start. cbn. intro E. injection E as E. apply H. now symmetry.
Qed.
(** regimes of different sizes: the second reads past the end, or leaves the rest alone *)
Lemma regime_sizes : exists f g n s, no_regime f /\ no_regime g /\ distinct f /\ distinct g /\ nreads 1 (SRegime f [g]) = HOk n /\ nstore (SRegime f [g]) = HOk s /\ (nstatic + n = s + 6)%nat.
Proof.
  exists iso, chab, 7%nat, 7%nat. destruct (iso_ok 0) as (A & B & C & D). assert (N : distinct chab) by (unfold distinct; cbn; nd). repeat split; try assumption.
Qed.
(** prefixes *)
Lemma regime_prefix : forall p m ms, p <> "" -> init_store (SRegime m ms) p = HErr EExists.
Proof.
  intros p m ms H. unfold init_store, pop_hist, pop_static. cbn [hcontains HistModel.find hloc hempty]. change hempty with (build [] []). rewrite add_build; [|intros []|reflexivity]. cbn [hbind app pop_state].
  unfold pop_static. assert (C : hcontains "small_stress" (build [((p ++ "small_stress")%string, TSymmetric)] (repeat None (ssize TSymmetric))) = false).
  { apply Bool.not_true_is_false. intro C. apply contains_build in C. destruct C as [C|[]]. destruct p as [|c p]; [now apply H|]. apply (f_equal String.length) in C. cbn in C.
    assert (G : forall a b, String.length (a ++ b)%string = (String.length a + String.length b)%nat) by (induction a as [|x a IH]; intro; cbn; [reflexivity|now rewrite IH]). rewrite G in C. cbn in C. lia. }
  rewrite C. unfold hadd. replace (hcontains (p ++ "small_stress")%string (build [((p ++ "small_stress")%string, TSymmetric)] (repeat None (ssize TSymmetric)))) with true; [reflexivity|].
  symmetry. apply contains_build. now left.
Qed.
Lemma damage_prefix_case : forall d0 store, get_damage (SDamage d0 iso) "a_" store = HErr ENotExists.
Proof.
  intros d0 store. apply damage_prefix; [discriminate| |discriminate|apply damaged_ok]. intros v [<-|[]]. discriminate.
Qed.
(** the whole start of a damaged model with creep, prefixed *)
Lemma start_case : exists h, init_store (SDamage (1 / 10) (SCreep (SLeaf []))) "w_" = HOk h /\ hdata h = cells (zeros 6 ++ [1 / 10] ++ zeros 6) /\ horder h = ["w_small_stress"; "w_damage"; "w_plastic_strain"].
Proof. destruct creep_elastic_ok as (A & B & C & D). eexists. split; [now apply store_build|]. split; reflexivity. Qed.
