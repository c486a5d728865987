(** Hu-Cocks hardening and the Arrhenius rule: what is expected. *)
From Verif Require Import Base Diff Blocks.
From Verif Require Import SlipModel SlipSpec HcModel HcSpec.
From Coq Require Import List.

Definition spacing_in (v : dspac) (h : vec) : Prop := forall i, (i < ds_n v)%nat -> 0 < h i.
(** The weighted slip activity that refines the spacing of system i. *)
Definition activity (v : dspac) (L : slat) (sl : rates) (i : nat) : R := rsum (l_n L) (fun j => ds_J v i j * Rabs (sl j)).
(** A history of backward Euler steps (time step, slip rates) of the spacings, with positive spacings. *)
Inductive spacing_steps (v : dspac) (L : slat) : vec -> list (R * rates) -> vec -> Prop :=
| sp_nil : forall h, spacing_steps v L h nil h
| sp_cons : forall h h1 hn dt sl rest, 0 <= dt -> (forall i, (i < ds_n v)%nat -> 0 < h1 i) ->
    (forall i, (i < ds_n v)%nat -> h1 i = h i + dt * h_rate (spacing v) L sl h1 i) -> spacing_steps v L h1 rest hn -> spacing_steps v L h ((dt, sl) :: rest) hn.

(** The dislocation part of a stored history, and the part of precipitate i. *)
Definition hk_d_part (k : hcock) (h : vec) : vec := h.
Definition hk_p_part (k : hcock) (h : vec) (i : nat) : vec := fun q => h (h_n (hk_d k) + 3 * i + q)%nat.
(** Where the strength can be differentiated: the dislocation part can be, there are precipitates, solute
    and a positive strength. *)
Definition hk_in (L : slat) (k : hcock) (Pd : vec -> Prop) (h : vec) : Prop :=
  Pd (hk_d_part k h) /\ (forall i, (i < hk_m k)%nat -> hp_f (hk_p k i) (hk_p_part k h i) <> 1) /\ 0 < hk_NA k h /\ 0 < hk_c k h * hk_b k /\
  forall p, (p < l_n L)%nat -> h_tau (hk_d k) L p (hk_d_part k h) <> 0.
Definition hk_rate_in (k : hcock) (Pd : rates -> vec -> Prop) (sl : rates) (h : vec) : Prop :=
  Pd sl (hk_d_part k h) /\ forall i, (i < hk_m k)%nat -> hc_reg (hk_p k i) (hk_p_part k h i).

(** Arrhenius: loaded, below the strength. *)
Definition ar_in (tau : R) (st : vec) : Prop := 0 < Rabs tau < st 0%nat.
