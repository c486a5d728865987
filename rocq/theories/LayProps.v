(** The store of composed models *)
From Coq Require Import String List Arith Lia Lra.
From Verif Require Import Base HistModel LayModel LaySpec LayProofs LayEx.
From Coq Require Import List.
Import ListNotations.
Open Scope string_scope.
Open Scope list_scope.

(** ** C97 *)
(** without regimes, and with creep only around models without variables: the start has the right size, no stress, every variable of the update at its initial value, and the names in that order, under any prefix *)
Theorem C97_start : forall m p, no_regime m -> well_formed m -> distinct m -> creep_on_stateless m -> exists h, init_store m p = HOk h /\ length (hdata h) = (6 + sizes (slots m))%nat
  /\ firstn nstatic (hdata h) = cells (zeros 6) /\ right_start m (hdata h) /\ horder h = map (append p) ("small_stress" :: map v_name (slots m)).
Proof. exact @start_right. Qed.
Print Assumptions C97_start.
Example C97_start_damage : forall d a, let m := SDamage d (iso1 a) in no_regime m /\ well_formed m /\ distinct m /\ creep_on_stateless m.
Proof. exact @damaged_ok. Qed.
Example C97_start_creep : let m := SDamage (1 / 10) (SCreep (SLeaf [])) in no_regime m /\ well_formed m /\ distinct m /\ creep_on_stateless m.
Proof. exact @creep_elastic_ok. Qed.
Example C97_start_case : exists h, init_store (SDamage (1 / 10) (SCreep (SLeaf []))) "w_" = HOk h /\ hdata h = cells (zeros 6 ++ [1 / 10] ++ zeros 6) /\ horder h = ["w_small_stress"; "w_damage"; "w_plastic_strain"].
Proof. exact @start_case. Qed.
(** the same with regimes at the top *)
Theorem C97_start_regimes : forall m, top_regime m -> well_formed m -> distinct m -> creep_on_stateless m -> exists h, init_store m "" = HOk h /\ length (hdata h) = (6 + sizes (slots m))%nat
  /\ firstn nstatic (hdata h) = cells (zeros 6) /\ right_start m (hdata h) /\ horder h = "small_stress" :: map v_name (slots m).
Proof. exact @start_right_top. Qed.
Print Assumptions C97_start_regimes.
(** with zero initial values also for creep around any model *)
Theorem C97_start_zero : forall m, top_regime m -> well_formed m -> distinct m -> all_zero m -> exists h, init_store m "" = HOk h /\ right_start m (hdata h).
Proof. exact @start_zero. Qed.
Print Assumptions C97_start_zero.
Example C97_start_zero_case : forall a, let m := SCreep (iso1 a) in no_regime m /\ well_formed m /\ distinct m.
Proof. exact @creep_ok. Qed.
Example C97_start_zero_met : top_regime (SCreep (iso1 0)) /\ all_zero (SCreep (iso1 0)) /\ exists h, init_store (SCreep (iso1 0)) "" = HOk h /\ right_start (SCreep (iso1 0)) (hdata h).
Proof.
  assert (T : top_regime (SCreep (iso1 0))) by (destruct (creep_ok 0) as (A & _); cbn in *; tauto).
  assert (Z : all_zero (SCreep (iso1 0))) by (unfold all_zero; cbn; repeat constructor).
  split; [exact T|]. split; [exact Z|]. apply C97_start_zero; [exact T|apply (creep_ok 0)|apply (creep_ok 0)|exact Z].
Qed.
(** but not with others: the initial value of the hardening becomes a plastic strain *)
Theorem C97_start_refuted : exists m h, no_regime m /\ well_formed m /\ distinct m /\ init_store m "" = HOk h /\ seen m (hdata h) = [cells [1 / 2; 0; 0; 0; 0; 0]; cells [0]] /\ ~ right_start m (hdata h).
Proof. exact @start_wrong. Qed.
Print Assumptions C97_start_refuted.
(** the names in a store, in the order they are added *)
Theorem C97_names : forall m, distinct m -> names_of m = HOk ("small_stress" :: map v_name (order m)).
Proof. exact @names_spec. Qed.
Print Assumptions C97_names.
(** which is not where the update finds them *)
Theorem C97_names_refuted : exists m, no_regime m /\ well_formed m /\ distinct m /\ names_of m = HOk ["small_stress"; "alpha"; "plastic_strain"] /\ map v_name (slots m) = ["plastic_strain"; "alpha"].
Proof. exact @names_wrong. Qed.
Print Assumptions C97_names_refuted.
(** the size of a store *)
Theorem C97_nstore : forall m, distinct m -> nstore m = HOk (6 + sizes (slots m))%nat.
Proof. exact @nstore_spec. Qed.
Print Assumptions C97_nstore.
(** the size of the state *)
Theorem C97_nstate : forall m, no_regime m -> distinct m -> nstate m = HOk (sizes (slots m)).
Proof. exact @nstate_spec. Qed.
Print Assumptions C97_nstate.
(** not for regime models: the stress is counted as state *)
Theorem C97_nstate_refuted : exists m, top_regime m /\ well_formed m /\ distinct m /\ nstate m = HOk 7%nat /\ nstore m = HOk 7%nat.
Proof. exact @regime_state. Qed.
Print Assumptions C97_nstate_refuted.
(** the update reads the state, no more and no less *)
Theorem C97_reads : forall m k, no_regime m -> distinct m -> nreads k m = HOk (sizes (slots m)).
Proof. exact @reads_spec. Qed.
Print Assumptions C97_reads.
(** also with regimes of equal size *)
Theorem C97_reads_regimes : forall f ms k, no_regime f -> distinct f -> List.Forall (fun m => no_regime m /\ distinct m /\ sizes (slots m) = sizes (slots f)) ms -> (k <= length ms)%nat ->
  exists n, nreads k (SRegime f ms) = HOk n /\ nstore (SRegime f ms) = HOk (nstatic + n)%nat.
Proof. exact @reads_top. Qed.
Print Assumptions C97_reads_regimes.
(** not with regimes of different size *)
Theorem C97_reads_sizes_refuted : exists f g n s, no_regime f /\ no_regime g /\ distinct f /\ distinct g /\ nreads 1 (SRegime f [g]) = HOk n /\ nstore (SRegime f [g]) = HOk s /\ (nstatic + n = s + 6)%nat.
Proof. exact @regime_sizes. Qed.
Print Assumptions C97_reads_sizes_refuted.
(** nor with regimes inside another model *)
Theorem C97_reads_inside_refuted : forall d0, exists m n s, (m = SCreep (SRegime iso [iso]) \/ m = SDamage d0 (SRegime iso [iso])) /\ distinct m /\ nreads 0 m = HOk n /\ nstore m = HOk s /\ (nstatic + n = s + 6)%nat.
Proof. exact @regime_inside_reads. Qed.
Print Assumptions C97_reads_inside_refuted.
Theorem C97_reads_creep_refuted : exists n s, nreads 0 (SCreep (SRegime iso [iso])) = HOk n /\ nstore (SCreep (SRegime iso [iso])) = HOk s /\ (nstatic + n = s + 6)%nat.
Proof. exact @creep_regime_reads. Qed.
Print Assumptions C97_reads_creep_refuted.
(** where the initial damage is lost as well *)
Theorem C97_start_inside_refuted : forall d0, d0 <> 0 -> exists h, init_store (SDamage d0 (SRegime iso [iso])) "" = HOk h /\ seen (SDamage d0 (SRegime iso [iso])) (hdata h) = [cells [0]; cells [0]]
  /\ ~ right_start (SDamage d0 (SRegime iso [iso])) (hdata h).
Proof. exact @regime_inside_start. Qed.
Print Assumptions C97_start_inside_refuted.
(** and regime models have no store with a prefix *)
Theorem C97_prefix_refuted : forall p m ms, p <> "" -> init_store (SRegime m ms) p = HErr EExists.
Proof. exact @regime_prefix. Qed.
Print Assumptions C97_prefix_refuted.
(** the reported damage is the one the update uses *)
Theorem C97_damage : forall d0 b store, distinct (SDamage d0 b) -> get_damage (SDamage d0 b) "" store = HOk (hd [] (seen (SDamage d0 b) store)).
Proof. exact @damage_read. Qed.
Print Assumptions C97_damage.
(** not after the prefix is changed *)
Theorem C97_damage_prefix_refuted : forall d0 store, get_damage (SDamage d0 iso) "a_" store = HErr ENotExists.
Proof. exact @damage_prefix_case. Qed.
Print Assumptions C97_damage_prefix_refuted.
(** then the call fails *)
Theorem C97_damage_prefix : forall d0 b p store, p <> "" -> (forall v, In v (slots b) -> v_name v <> (p ++ "damage")%string) -> (p ++ "damage")%string <> "small_stress" -> distinct (SDamage d0 b) ->
  get_damage (SDamage d0 b) p store = HErr ENotExists.
Proof. exact @damage_prefix. Qed.
Print Assumptions C97_damage_prefix.
