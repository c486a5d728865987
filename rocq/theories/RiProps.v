(** Property C24: rate independent flow rules. *)
From Verif Require Import Base.
From Verif Require Import Diff.
From Verif Require Import NemlMathModel NemlMathSpec InterpModel InterpSpec.
From Verif Require Import SurfModel SurfSpec SurfProofs HardModel HardSpec HardProofs RiModel RiSpec RiProofs.

(** An associative flow rule that can be built (the sizes agree) from a surface and a hardening
    rule with exact derivatives has exact derivatives. *)
Theorem C24_associative : forall Y H F P Q, make_associative Y H = Some F ->
  surface_exact P Y -> hard_exact Q H -> flow_exact (fun T s a => P T s (hr_q H a T) /\ Q T a) F.
Proof. exact assoc_exact. Qed.
Print Assumptions C24_associative.

Theorem C24_nonassociative : forall Y H F P Q Ph, make_nonassociative Y H = Some F ->
  surface_exact P Y -> na_q_exact Q H -> na_h_exact Ph H ->
  flow_exact (fun T s a => P T s (na_q H a T) /\ Q T a /\ Ph T s a) F.
Proof. exact nonassoc_exact. Qed.
Print Assumptions C24_nonassociative.

(** mismatched sizes are rejected, and only those *)
Theorem C24_size_check : forall Y H K,
  (make_associative Y H = None <-> hr_n H <> ys_n Y) /\ (make_nonassociative Y K = None <-> na_ninter K <> ys_n Y).
Proof.
  intros Y H K. unfold make_associative, make_nonassociative.
  destruct (Nat.eqb_spec (hr_n H) (ys_n Y)), (Nat.eqb_spec (na_ninter K) (ys_n Y)); split; split; intros; try congruence; try contradiction.
Qed.
Print Assumptions C24_size_check.

(** an associative rule flows along the gradient of its yield function and its history evolves
    along the gradient with respect to the hardening variables *)
Theorem C24_normality : forall Y H F P, make_associative Y H = Some F -> surface_exact P Y ->
  forall T s a, P T s (hr_q H a T) ->
  (forall vs, is_derive (fun u => rf_f F (fun i => s i + u * vs i) a T) 0 (dot 6 (rf_g F s a T) vs)) /\
  (forall vq, is_derive (fun u => ys_f Y s (fun i => hr_q H a T i + u * vq i) T) 0 (dot (ys_n Y) (rf_h F s a T) vq)).
Proof.
  intros Y H F P HF HY T s a HP. unfold make_associative in HF. destruct (Nat.eqb_spec (hr_n H) (ys_n Y)) as [E|]; [|discriminate].
  injection HF as <-. destruct (HY T) as [H1 _]. split.
  - intros vs. assert (HP' : P T (fun i => s i + 0 * vs i) (hr_q H a T)).
    { replace (fun i => s i + 0 * vs i) with s. exact HP. apply FunctionalExtensionality.functional_extensionality. intros i. rewrite Rmult_0_l, Rplus_0_r. reflexivity. }
    assert (D := H1 (fun u i => s i + u * vs i) (fun _ => hr_q H a T) 0 vs (fun _ => 0) (path_line 6 s vs) ltac:(intros i Hi; apply D_const) HP').
    cbv beta in D. rewrite dot_zero, Rplus_0_r in D. 
    replace (fun i => s i + 0 * vs i) with s in D by (apply FunctionalExtensionality.functional_extensionality; intros i; rewrite Rmult_0_l, Rplus_0_r; reflexivity). exact D.
  - intros vq. assert (HP' : P T s (fun i => hr_q H a T i + 0 * vq i)).
    { replace (fun i => hr_q H a T i + 0 * vq i) with (hr_q H a T). exact HP. apply FunctionalExtensionality.functional_extensionality. intros i. rewrite Rmult_0_l, Rplus_0_r. reflexivity. }
    assert (D := H1 (fun _ => s) (fun u i => hr_q H a T i + u * vq i) 0 (fun _ => 0) vq ltac:(intros i Hi; apply D_const) (path_line _ (hr_q H a T) vq) HP').
    cbv beta in D. rewrite dot_zero, Rplus_0_l in D. 
    replace (fun i => hr_q H a T i + 0 * vq i) with (hr_q H a T) in D by (apply FunctionalExtensionality.functional_extensionality; intros i; rewrite Rmult_0_l, Rplus_0_r; reflexivity). exact D.
Qed.
Print Assumptions C24_normality.

(** J2 plasticity with Voce hardening, and Chaboche with any number of backstresses *)
Theorem C24_j2_isotropic : forall s0 Rv d F, make_associative IsoJ2 (VoceIso s0 Rv d) = Some F -> flow_exact iso_domain F.
Proof.
  intros s0 Rv d F HF T. destruct (assoc_exact _ _ _ _ _ HF isoj2_exact (voce_exact s0 Rv d) T) as [A [B C]].
  split; [|split]; intros s a t vs va Hs Ha HP; [apply A|apply B|apply C]; try assumption; split; (exact HP || exact I).
Qed.
Print Assumptions C24_j2_isotropic.

Theorem C24_j2_chaboche : forall iso p F Q, hr_n iso = 1%nat -> hard_exact Q iso -> (forall i, gamma_exact (ch_g p i)) ->
  make_nonassociative IsoKinJ2 (Chaboche iso p) = Some F ->
  flow_exact (fun T s a => Q T a /\ ch_domain (ch_nb p) T s a) F.
Proof.
  intros iso p F Q Hn Hi Hg HF T.
  destruct (nonassoc_exact _ _ _ _ _ _ HF j2_exact (chaboche_q iso p Q Hn Hi) (chaboche_h iso p Hg) T) as [A [B C]].
  assert (D : forall s a, Q T a /\ ch_domain (ch_nb p) T s a -> kin_domain T s (na_q (Chaboche iso p) a T) /\ Q T a /\ ch_domain (ch_nb p) T s a).
  { intros s a [H1 H2]. split; [|split; assumption]. exact (dom_qx p T s a H2). }
  split; [|split]; intros s a t vs va Hs Ha HP; [apply A|apply B|apply C]; try assumption; apply D; exact HP.
Qed.
Print Assumptions C24_j2_chaboche.

(** the two constructions succeed *)
Example C24_case : forall p, make_associative IsoJ2 (VoceIso (fun _ => 1) (fun _ => 1) (fun _ => 1)) <> None /\
  make_nonassociative IsoKinJ2 (Chaboche (LinearIso (fun _ => 1) (fun _ => 1)) p) <> None /\
  make_associative IsoKinJ2 (VoceIso (fun _ => 1) (fun _ => 1) (fun _ => 1)) = None.
Proof. intros p. split; [|split]; vm_compute; congruence. Qed.
