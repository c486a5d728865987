(** Concrete programs: composed models given another elastic model, and the refutations. *)
From Coq Require Import List Arith Lia Bool.
From Verif Require Import EmModel EmSpec EmProofs.
Import ListNotations.

(** an integrator with its rule, under creep, in a regime model with a perfectly plastic model, with creep damage *)
Definition prog (e : emodel) : list op := [New KRule e; New (KIntegrator 0) e; New (KCreep 1) e; New KLeaf e; New (KRegime [2; 3]) e; New (KScalar false []) e; New (KDamaged 5 4) e].
Lemma prog_case : forall e e', exists s h', run start (prog e) = Some s /\ is_model (s_heap s) 6 = true /\ set_elastic_model e' 6 (s_heap s) = Some h' /\ map (fun a => elastic a h') [0; 1; 2; 3; 4; 5; 6; 7] = [Some e'; Some e'; Some e'; Some e'; Some e'; Some e; Some e'; None].
Proof. intros e e'. eexists. eexists. split; [reflexivity|]. split; [reflexivity|]. split; reflexivity. Qed.
Lemma prog_part : forall s e b, run start (prog e) = Some s -> part_of (s_heap s) 6 b -> ~ reading_damage (s_heap s) b.
Proof.
  intros s e b E _ (o & EO & ms & K). inversion E; subst; clear E. cbn in EO. unfold put in EO.
  repeat (match type of EO with (if ?c then _ else _) = _ => destruct c; [inversion EO; subst; discriminate|] end). discriminate.
Qed.
(** the damage keeps the old one *)
Lemma damage_stale : forall e e', e <> e' -> exists s h', reachable s /\ is_model (s_heap s) 2 = true /\ (forall a o, s_heap s a = Some o -> o_elastic o = e) /\ set_elastic_model e' 2 (s_heap s) = Some h'
  /\ elastic 2 h' = Some e' /\ behaviour h' 2 = Some (VNode 4 (Some e') [VNode 5 (Some e) []; VNode 0 (Some e') []]) /\ behaviour h' 2 <> option_map (rebuilt e') (behaviour (s_heap s) 2).
Proof.
  intros e e' N. eexists. eexists. split; [exists [New (KScalar true []) e; New KLeaf e; New (KDamaged 0 1) e]; reflexivity|]. split; [reflexivity|]. split.
  { intros a o EO. cbn in EO. unfold put in EO. repeat (match type of EO with (if ?c then _ else _) = _ => destruct c; [now inversion EO|] end). discriminate. }
  split; [reflexivity|]. split; [reflexivity|]. split; [reflexivity|]. cbn. intro X. inversion X. now apply N.
Qed.
(** another model with the same base changes *)
Lemma shared_changes : forall e e', e <> e' -> exists s h', reachable s /\ is_model (s_heap s) 1 = true /\ is_model (s_heap s) 2 = true /\ set_elastic_model e' 1 (s_heap s) = Some h'
  /\ elastic 2 h' = Some e /\ behaviour (s_heap s) 2 = Some (VNode 3 (Some e) [VNode 0 (Some e) []]) /\ behaviour h' 2 = Some (VNode 3 (Some e) [VNode 0 (Some e') []]).
Proof. intros e e' N. eexists. eexists. split; [exists [New KLeaf e; New (KCreep 0) e; New (KCreep 0) e]; reflexivity|]. repeat split. Qed.
(** constructors do not hand theirs on *)
Lemma constructor_mixed : forall e e', e <> e' -> exists s, reachable s /\ is_model (s_heap s) 1 = true /\ elastic 1 (s_heap s) = Some e /\ behaviour (s_heap s) 1 = Some (VNode 3 (Some e) [VNode 0 (Some e') []]).
Proof. intros e e' N. eexists. split; [exists [New KLeaf e'; New (KCreep 0) e]; reflexivity|]. repeat split. Qed.
(** two models side by side share nothing *)
Lemma apart_case : forall e e', exists s h', reachable s /\ set_elastic_model e' 1 (s_heap s) = Some h' /\ (forall c, part_of (s_heap s) 1 c -> part_of (s_heap s) 3 c -> scalar_damage (s_heap s) c)
  /\ behaviour h' 3 = Some (VNode 3 (Some e) [VNode 0 (Some e) []]) /\ behaviour h' 1 = Some (VNode 3 (Some e') [VNode 0 (Some e') []]).
Proof.
  intros e e'. eexists. eexists. split; [exists [New KLeaf e; New (KCreep 0) e; New KLeaf e; New (KCreep 2) e]; reflexivity|]. split; [reflexivity|]. split; [|split; reflexivity].
  assert (P : forall a c, part_of (s_heap (mkState 4 (put (put (put (put (fun _ => None) 0 (mkObj KLeaf e)) 1 (mkObj (KCreep 0) e)) 2 (mkObj KLeaf e)) 3 (mkObj (KCreep 2) e)))) a c -> (a = 1 \/ a = 0 -> c = 1 \/ c = 0) /\ (a = 3 \/ a = 2 -> c = 3 \/ c = 2)).
  { intros a c P. induction P as [a|a o x b E I P IH]; [auto|]. cbn in E. unfold put in E. split; intros [-> | ->]; cbn in E; inversion E; subst; cbn in I; try contradiction; destruct I as [<-|[]]; apply IH; auto. }
  intros c P1 P3. apply P in P1 as (A & _). apply P in P3 as (_ & B). destruct A as [-> | ->]; auto; destruct B as [B|B]; auto; discriminate.
Qed.
