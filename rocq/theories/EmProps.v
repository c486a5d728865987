(** Replacing the elastic model of a composed model *)
From Coq Require Import List Arith Lia.
From Verif Require Import EmModel EmSpec EmProofs EmEx.
Import ListNotations.

(** ** C98 *)
(** in every state a program can reach the call returns, every part of the model except damage has the new elastic model, and nothing else has changed *)
Theorem C98_set : forall s a e, reachable s -> is_model (s_heap s) a = true -> exists h', set_elastic_model e a (s_heap s) = Some h'
  /\ (forall b, part_of (s_heap s) a b -> ~ scalar_damage (s_heap s) b -> elastic b h' = Some e)
  /\ (forall b, ~ (part_of (s_heap s) a b /\ ~ scalar_damage (s_heap s) b) -> h' b = s_heap s b)
  /\ (forall b, option_map o_kind (h' b) = option_map o_kind (s_heap s b)).
Proof. exact @set_spec. Qed.
Print Assumptions C98_set.
Example C98_set_case : forall e e', exists s h', run start (prog e) = Some s /\ is_model (s_heap s) 6 = true /\ set_elastic_model e' 6 (s_heap s) = Some h' /\ map (fun a => elastic a h') [0; 1; 2; 3; 4; 5; 6; 7] = [Some e'; Some e'; Some e'; Some e'; Some e'; Some e; Some e'; None].
Proof. exact @prog_case. Qed.
(** without damage that reads an elastic model: the model behaves like one built with the new elastic model *)
Theorem C98_rebuilt : forall s a e, reachable s -> is_model (s_heap s) a = true -> (forall b, part_of (s_heap s) a b -> ~ reading_damage (s_heap s) b) ->
  exists h' t, set_elastic_model e a (s_heap s) = Some h' /\ behaviour (s_heap s) a = Some t /\ behaviour h' a = Some (rebuilt e t).
Proof. exact @set_rebuilt. Qed.
Print Assumptions C98_rebuilt.
(** and as if the whole program had been written with it *)
Theorem C98_as_written : forall l s a e, run start l = Some s -> is_model (s_heap s) a = true -> (forall b, part_of (s_heap s) a b -> ~ reading_damage (s_heap s) b) ->
  exists h' s', set_elastic_model e a (s_heap s) = Some h' /\ run start (map (with_elastic e) l) = Some s' /\ behaviour h' a = behaviour (s_heap s') a.
Proof. exact @set_as_written. Qed.
Print Assumptions C98_as_written.
Example C98_as_written_case : forall s e b, run start (prog e) = Some s -> part_of (s_heap s) 6 b -> ~ reading_damage (s_heap s) b.
Proof. exact @prog_part. Qed.
(** with such damage it does not *)
Theorem C98_damage_refuted : forall e e', e <> e' -> exists s h', reachable s /\ is_model (s_heap s) 2 = true /\ (forall a o, s_heap s a = Some o -> o_elastic o = e) /\ set_elastic_model e' 2 (s_heap s) = Some h'
  /\ elastic 2 h' = Some e' /\ behaviour h' 2 = Some (VNode 4 (Some e') [VNode 5 (Some e) []; VNode 0 (Some e') []]) /\ behaviour h' 2 <> option_map (rebuilt e') (behaviour (s_heap s) 2).
Proof. exact @damage_stale. Qed.
Print Assumptions C98_damage_refuted.
(** of two calls only the last counts *)
Theorem C98_last_call : forall s a e1 e2 h1, reachable s -> is_model (s_heap s) a = true -> set_elastic_model e1 a (s_heap s) = Some h1 ->
  exists h2 h12, set_elastic_model e2 a (s_heap s) = Some h2 /\ set_elastic_model e2 a h1 = Some h12 /\ forall b, h12 b = h2 b.
Proof. exact @set_again. Qed.
Print Assumptions C98_last_call.
(** models that share no part with it behave as before *)
Theorem C98_others : forall s a e b h', reachable s -> is_model (s_heap s) a = true -> set_elastic_model e a (s_heap s) = Some h' -> (forall c, part_of (s_heap s) a c -> part_of (s_heap s) b c -> scalar_damage (s_heap s) c) ->
  behaviour h' b = behaviour (s_heap s) b.
Proof. exact @set_frame. Qed.
Print Assumptions C98_others.
Example C98_others_case : forall e e', exists s h', reachable s /\ set_elastic_model e' 1 (s_heap s) = Some h' /\ (forall c, part_of (s_heap s) 1 c -> part_of (s_heap s) 3 c -> scalar_damage (s_heap s) c)
  /\ behaviour h' 3 = Some (VNode 3 (Some e) [VNode 0 (Some e) []]) /\ behaviour h' 1 = Some (VNode 3 (Some e') [VNode 0 (Some e') []]).
Proof. exact @apart_case. Qed.
(** models that share one change, without their own elastic model *)
Theorem C98_shared_refuted : forall e e', e <> e' -> exists s h', reachable s /\ is_model (s_heap s) 1 = true /\ is_model (s_heap s) 2 = true /\ set_elastic_model e' 1 (s_heap s) = Some h'
  /\ elastic 2 h' = Some e /\ behaviour (s_heap s) 2 = Some (VNode 3 (Some e) [VNode 0 (Some e) []]) /\ behaviour h' 2 = Some (VNode 3 (Some e) [VNode 0 (Some e') []]).
Proof. exact @shared_changes. Qed.
Print Assumptions C98_shared_refuted.
(** a program that uses one elastic model throughout has no other *)
Theorem C98_one_elastic : forall e l s, run start (map (with_elastic e) l) = Some s -> forall a o, s_heap s a = Some o -> o_elastic o = e.
Proof. exact @built_alike. Qed.
Print Assumptions C98_one_elastic.
(** but a constructor does not hand its elastic model on *)
Theorem C98_constructors_refuted : forall e e', e <> e' -> exists s, reachable s /\ is_model (s_heap s) 1 = true /\ elastic 1 (s_heap s) = Some e /\ behaviour (s_heap s) 1 = Some (VNode 3 (Some e) [VNode 0 (Some e') []]).
Proof. exact @constructor_mixed. Qed.
Print Assumptions C98_constructors_refuted.
