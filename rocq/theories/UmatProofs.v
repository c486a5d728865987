(** Proofs about the Abaqus user material. *)
From Verif Require Import Base Diff.
From Verif Require Import SubstepModel CreepModel BlockModel UmatModel UmatSpec.
From Coq Require Import ZArith List Arith Lia Lra FunctionalExtensionality.
Import ListNotations.
Open Scope R_scope.

Lemma sqrt22 : sqrt 2 * sqrt 2 = 2.
Proof. apply sqrt_sqrt; lra. Qed.
Lemma sqrt2_pos : 0 < sqrt 2.
Proof. apply sqrt_lt_R0; lra. Qed.
Lemma sqrt2_nz : sqrt 2 <> 0.
Proof. pose proof sqrt2_pos; lra. Qed.
Ltac six k H := destruct k as [|[|[|[|[|[|k]]]]]]; [| | | | | | exfalso; lia].
Lemma imap_lt i : (i < 6)%nat -> (imap i < 6)%nat.
Proof. intros H. six i H; cbn; lia. Qed.
Lemma imap_imap i : imap (imap i) = i.
Proof. destruct i as [|[|[|[|[|[|i]]]]]]; reflexivity. Qed.
Lemma smult_imap i : smult (imap i) = smult i.
Proof. destruct i as [|[|[|[|[|[|i]]]]]]; reflexivity. Qed.
Lemma emult_imap i : emult (imap i) = emult i.
Proof. destruct i as [|[|[|[|[|[|i]]]]]]; reflexivity. Qed.
Lemma smult_nz i : smult i <> 0.
Proof. unfold smult. destruct (Nat.ltb i 3); [lra | apply sqrt2_nz]. Qed.
Lemma emult_nz i : emult i <> 0.
Proof. unfold emult. destruct (Nat.ltb i 3); [lra |]. pose proof sqrt2_pos; lra. Qed.

(** the conversions *)
Lemma convertv_ext a b idx m : (forall i, (i < 6)%nat -> (idx i < 6)%nat) -> veq 6 a b -> convertv a idx m = convertv b idx m.
Proof.
  intros Hi H. apply functional_extensionality; intros i. unfold convertv.
  destruct (Nat.ltb_spec i 6); [rewrite H; [reflexivity | now apply Hi] | reflexivity].
Qed.
Lemma to_strain t : symmetric t -> convertv (abq_strain t) imap emult = mandel t.
Proof.
  intros Hs. apply functional_extensionality; intros i. unfold convertv, emult.
  destruct i as [|[|[|[|[|[|i]]]]]]; cbn; try lra.
  - rewrite (Hs 2%nat 1%nat) by lia. field.
  - rewrite (Hs 2%nat 0%nat) by lia. field.
  - rewrite (Hs 1%nat 0%nat) by lia. field.
Qed.
Lemma to_stress t : convertv (abq_stress t) imap smult = mandel t.
Proof.
  apply functional_extensionality; intros i. unfold convertv, smult.
  destruct i as [|[|[|[|[|[|i]]]]]]; cbn; ring.
Qed.
Lemma bconvertv_at inp m res k : (k < 6)%nat -> bconvertv inp imap m res k = inp (imap k) / m k.
Proof. intros H. unfold bconvertv. cbn [fold_left seq]. unfold vput, imap. six k H; reflexivity. Qed.
Lemma bconvertv_above inp m res k : (6 <= k)%nat -> bconvertv inp imap m res k = res k.
Proof.
  intros H. unfold bconvertv. cbn [fold_left seq]. unfold vput, imap.
  destruct k as [|[|[|[|[|[|k]]]]]]; try lia. reflexivity.
Qed.
Lemma row_at inp f g i : forall res k l, (l < 6)%nat ->
  fold_left (fun r j => mput r (imap i) (imap j) (inp i j / (f (imap i) * g (imap j)))) (seq 0 6) res k l =
  if Nat.eqb k (imap i) then inp i (imap l) / (f (imap i) * g l) else res k l.
Proof.
  intros res k l H. cbn [fold_left seq]. unfold mput. destruct (Nat.eqb k (imap i)) eqn:E; cbn [andb].
  - six l H; reflexivity.
  - reflexivity.
Qed.
Lemma bconvertt_at inp f g res k l : (k < 6)%nat -> (l < 6)%nat -> bconvertt inp imap f g res k l = inp (imap k) (imap l) / (f k * g l).
Proof.
  intros Hk Hl. unfold bconvertt.
  set (step := fun (r : mat) (i : nat) => fold_left (fun r j => mput r (imap i) (imap j) (inp i j / (f (imap i) * g (imap j)))) (seq 0 6) r).
  change (fold_left step [0; 1; 2; 3; 4; 5]%nat res k l = inp (imap k) (imap l) / (f k * g l)).
  cbn [fold_left]. unfold step. rewrite !row_at by exact Hl.
  six k Hk; reflexivity.
Qed.
(** the tensor of a Mandel vector *)
Definition tens (v : vec) : tensor := fun i j => match i, j with
  | 0%nat, 0%nat => v 0%nat | 1%nat, 1%nat => v 1%nat | 2%nat, 2%nat => v 2%nat
  | 1%nat, 2%nat | 2%nat, 1%nat => v 3%nat / sqrt 2 | 0%nat, 2%nat | 2%nat, 0%nat => v 4%nat / sqrt 2 | 0%nat, 1%nat | 1%nat, 0%nat => v 5%nat / sqrt 2 | _, _ => 0 end.
Lemma tens_sym v : symmetric (tens v).
Proof. intros i j Hi Hj. destruct i as [|[|[|i]]]; try lia; destruct j as [|[|[|j]]]; try lia; reflexivity. Qed.
Lemma mandel_tens v : veq 6 (mandel (tens v)) v.
Proof. intros k Hk. pose proof sqrt2_nz. six k Hk; cbn; try reflexivity; field; assumption. Qed.
Lemma from_stress t v res : veq 6 (mandel t) v -> veq 6 (bconvertv v imap smult res) (abq_stress t).
Proof.
  intros H k Hk. rewrite bconvertv_at by exact Hk. rewrite <- (H (imap k)) by now apply imap_lt.
  pose proof sqrt2_nz. unfold smult. six k Hk; cbn; field; auto.
Qed.
Lemma power_mandel s e : symmetric s -> symmetric e -> dot 6 (mandel s) (mandel e) = power s e.
Proof.
  intros Hs He. unfold dot, power. cbn [rsum mandel].
  rewrite (Hs 1%nat 0%nat), (Hs 2%nat 0%nat), (Hs 2%nat 1%nat), (He 1%nat 0%nat), (He 2%nat 0%nat), (He 2%nat 1%nat) by lia.
  replace (sqrt 2 * s 1%nat 2%nat * (sqrt 2 * e 1%nat 2%nat)) with (sqrt 2 * sqrt 2 * (s 1%nat 2%nat * e 1%nat 2%nat)) by ring.
  replace (sqrt 2 * s 0%nat 2%nat * (sqrt 2 * e 0%nat 2%nat)) with (sqrt 2 * sqrt 2 * (s 0%nat 2%nat * e 0%nat 2%nat)) by ring.
  replace (sqrt 2 * s 0%nat 1%nat * (sqrt 2 * e 0%nat 1%nat)) with (sqrt 2 * sqrt 2 * (s 0%nat 1%nat * e 0%nat 1%nat)) by ring.
  rewrite sqrt22. ring.
Qed.
Lemma power_abq s e : symmetric s -> dot 6 (abq_stress s) (abq_strain e) = power s e.
Proof.
  intros Hs. unfold dot, power. cbn [rsum abq_stress abq_strain].
  rewrite (Hs 1%nat 0%nat), (Hs 2%nat 0%nat), (Hs 2%nat 1%nat) by lia. ring.
Qed.
Lemma notation_ok s e : symmetric s -> symmetric e -> dot 6 (abq_stress s) (abq_strain e) = power s e /\ dot 6 (mandel s) (mandel e) = power s e.
Proof. intros Hs He. split; [now apply power_abq | now apply power_mandel]. Qed.

(** one call *)
Lemma tplus_sym a b : symmetric a -> symmetric b -> symmetric (tplus a b).
Proof. intros Ha Hb i j Hi Hj. unfold tplus. now rewrite Ha, Hb. Qed.
Lemma abq_strain_plus a b k : abq_strain (tplus a b) k = abq_strain a k + abq_strain b k.
Proof. unfold abq_strain, tplus. destruct k as [|[|[|[|[|[|k]]]]]]; ring. Qed.

(** the call the code makes is the direct one *)
Lemma same_call B d q n : symmetric (tn_e d) -> matches q n ->
  ba_update B {| ld_e := convertv (fun i => at_stran q i + abq_strain (tn_e d) i) imap emult; ld_T := at_temp q + tn_T d; ld_t := at_time q + tn_t d |}
    {| ld_e := convertv (at_stran q) imap emult; ld_T := at_temp q; ld_t := at_time q |} (convertv (ap_stress (at_p q)) imap smult) (ap_statev (at_p q))
    (ap_sse (at_p q) + ap_spd (at_p q)) (ap_spd (at_p q)) =
  ba_update B {| ld_e := mandel (tplus (nn_e n) (tn_e d)); ld_T := nn_T n + tn_T d; ld_t := nn_t n + tn_t d |}
      {| ld_e := mandel (nn_e n); ld_T := nn_T n; ld_t := nn_t n |} (mandel (nn_s n)) (nn_h n) (nn_u n) (nn_p n).
Proof.
  intros Hd (Hs & He & Ht & HT & Hst & Hh & Hu & Hp).
  rewrite (convertv_ext (fun i => at_stran q i + abq_strain (tn_e d) i) (abq_strain (tplus (nn_e n) (tn_e d))) imap emult imap_lt).
  2:{ intros k Hk. rewrite abq_strain_plus. cbv beta. now rewrite (He k Hk). }
  rewrite (convertv_ext (at_stran q) _ imap emult imap_lt He).
  rewrite (convertv_ext (ap_stress (at_p q)) _ imap smult imap_lt Hst).
  rewrite !to_strain, to_stress by (auto using tplus_sym).
  rewrite Ht, HT, Hh, Hu, Hp. f_equal. ring.
Qed.
Lemma step_ok B nstatv d q n : (ba_nh B <= nstatv)%nat -> symmetric (tn_e d) -> matches q n ->
  (forall q', aba_step B 6 nstatv (abq_inc d) q = Some q' -> exists n' A, direct B d n n' A /\ matches q' n' /\
     forall k l, (k < 6)%nat -> (l < 6)%nat -> ap_ddsdde (at_p q') k l = A (imap k) (imap l) / (smult k * emult l)) /\
  (aba_step B 6 nstatv (abq_inc d) q = None -> direct_fails B d n).
Proof.
  intros Hn Hd Hm. pose proof (same_call B d q n Hd Hm) as Hc.
  unfold aba_step, aba_call, umat. cbn [c_create Z.eqb negb ai_stran ai_dstran ai_time ai_dtime ai_temp ai_dtemp abq_inc di_e di_t di_T fresh_call ap_stress ap_statev ap_sse ap_spd ap_ddsdde ap_scd ap_pnewdt].
  replace (Nat.ltb nstatv (ba_nh B)) with false by (symmetry; apply Nat.ltb_ge; exact Hn).
  cbn [Nat.ltb Nat.leb orb]. cbv zeta. rewrite Hc. unfold direct, direct_fails.
  destruct Hm as (Hs & He & Ht & HT & Hst & Hh & Hu & Hp).
  match goal with |- context [ba_update B ?a ?b ?c ?e ?f ?g] => destruct (ba_update B a b c e f g) as [r|] end.
  - cbn [c_update_sd Z.eqb negb ap_pnewdt]. destruct (Req_EM_T 1 1) as [_|]; [|lra].
    split; [| discriminate]. intros q' Hq.
    set (q1 := {| at_stran := _ |}) in Hq. assert (q' = q1) as -> by congruence. clear Hq.
    exists {| nn_e := tplus (nn_e n) (tn_e d); nn_t := nn_t n + tn_t d; nn_T := nn_T n + tn_T d; nn_s := tens (pr_s r); nn_h := pr_h r; nn_u := pr_u r; nn_p := pr_p r |}, (pr_A r).
    split; [| split].
    + exists r. cbn [nn_e nn_t nn_T nn_s nn_h nn_u nn_p].
      split; [reflexivity |]. split; [reflexivity |]. split; [reflexivity |]. split; [reflexivity |].
      split; [apply tens_sym |]. split; [apply mandel_tens |]. auto.
    + unfold matches, q1. cbn [at_stran at_time at_temp at_p ap_stress ap_statev ap_sse ap_spd nn_e nn_t nn_T nn_s nn_h nn_u nn_p].
      split; [now apply tplus_sym |]. split.
      { intros k Hk. rewrite abq_strain_plus. cbv beta. now rewrite (He k Hk). }
      split; [congruence |]. split; [congruence |]. split; [apply from_stress, mandel_tens |]. auto.
    + intros k l Hk Hl. unfold q1. cbn [at_p ap_ddsdde]. rewrite bconvertt_at by assumption. reflexivity.
  - cbn [cut_step ap_pnewdt]. destruct (Req_EM_T (1 / 2) 1) as [E|_]; [lra |]. split; [discriminate | reflexivity].
Qed.
Lemma start_matches B T t : matches (aba_start B T t) (direct_start B T t).
Proof.
  unfold matches, aba_start, direct_start. cbn [at_stran at_time at_temp at_p ap_stress ap_statev ap_sse ap_spd nn_e nn_t nn_T nn_s nn_h nn_u nn_p].
  split; [intros i j _ _; reflexivity |]. split; [intros k Hk; six k Hk; cbn; ring |]. split; [reflexivity |]. split; [reflexivity |].
  split; [intros k Hk; six k Hk; reflexivity |]. split; [reflexivity |]. split; [ring | reflexivity].
Qed.
Lemma run_ok B nstatv : (ba_nh B <= nstatv)%nat -> forall ds q n, (forall d, In d ds -> symmetric (tn_e d)) -> matches q n ->
  forall q', aba_run B 6 nstatv (map abq_inc ds) q = Some q' -> exists n', direct_run B ds n n' /\ matches q' n'.
Proof.
  intros Hn. induction ds as [|d ds IH]; intros q n Hd Hm q' Hq.
  - cbn in Hq. assert (q' = q) as -> by congruence. exists n. split; [constructor | exact Hm].
  - cbn [map aba_run] in Hq. destruct (step_ok B nstatv d q n Hn (Hd d (or_introl eq_refl)) Hm) as [S1 _].
    destruct (aba_step B 6 nstatv (abq_inc d) q) as [q1|]; [| discriminate].
    destruct (S1 q1 eq_refl) as (n1 & A & D & M & _).
    destruct (IH q1 n1 (fun d' H => Hd d' (or_intror H)) M q' Hq) as (n' & R' & M').
    exists n'. split; [econstructor; eassumption | exact M'].
Qed.
Lemma run_stops B nstatv : (ba_nh B <= nstatv)%nat -> forall ds q n, (forall d, In d ds -> symmetric (tn_e d)) -> matches q n ->
  aba_run B 6 nstatv (map abq_inc ds) q = None -> exists pre d post n', ds = pre ++ d :: post /\ direct_run B pre n n' /\ direct_fails B d n'.
Proof.
  intros Hn. induction ds as [|d ds IH]; intros q n Hd Hm Hq; [discriminate |].
  cbn [map aba_run] in Hq. destruct (step_ok B nstatv d q n Hn (Hd d (or_introl eq_refl)) Hm) as [S1 S2].
  destruct (aba_step B 6 nstatv (abq_inc d) q) as [q1|].
  - destruct (S1 q1 eq_refl) as (n1 & A & D & M & _).
    destruct (IH q1 n1 (fun d' H => Hd d' (or_intror H)) M Hq) as (pre & d' & post & n' & E & R' & F).
    exists (d :: pre), d', post, n'. split; [now rewrite E |]. split; [econstructor; eassumption | exact F].
  - exists [], d, ds, n. split; [reflexivity |]. split; [constructor | now apply S2].
Qed.
Lemma history B T t nstatv ds : (ba_nh B <= nstatv)%nat -> (forall d, In d ds -> symmetric (tn_e d)) ->
  match aba_run B 6 nstatv (map abq_inc ds) (aba_start B T t) with
  | Some q => exists n, direct_run B ds (direct_start B T t) n /\ matches q n
  | None => exists pre d post n, ds = pre ++ d :: post /\ direct_run B pre (direct_start B T t) n /\ direct_fails B d n
  end.
Proof.
  intros Hn Hd. destruct (aba_run B 6 nstatv (map abq_inc ds) (aba_start B T t)) as [q|] eqn:E.
  - exact (run_ok B nstatv Hn ds _ _ Hd (start_matches B T t) q E).
  - exact (run_stops B nstatv Hn ds _ _ Hd (start_matches B T t) E).
Qed.

(** a refused step: what Abaqus holds is as before and half the step is asked for *)
Definition asked (B : base) (a : ainc) (p : apoint) : option pres :=
  ba_update B {| ld_e := convertv (fun i => ai_stran a i + ai_dstran a i) imap emult; ld_T := ai_temp a + ai_dtemp a; ld_t := ai_time a + ai_dtime a |}
    {| ld_e := convertv (ai_stran a) imap emult; ld_T := ai_temp a; ld_t := ai_time a |} (convertv (ap_stress p) imap smult) (ap_statev p) (ap_sse p + ap_spd p) (ap_spd p).
Lemma umat_eq B dies nstatv junk a p models : (ba_nh B <= nstatv)%nat -> umat B (Returns tt) dies 6 nstatv junk a p models =
  match asked B a p with
  | Some r => Back {| ap_stress := bconvertv (pr_s r) imap smult (ap_stress p); ap_statev := pr_h r; ap_ddsdde := bconvertt (transpose (fortran (pr_A r))) imap smult emult (ap_ddsdde p);
                   ap_sse := pr_u r - pr_p r; ap_spd := pr_p r; ap_scd := 0; ap_pnewdt := ap_pnewdt p |} (match dies with Returns _ => models | Throws => S models end)
  | None => Back (cut_step p) (S models)
  end.
Proof.
  intros Hn. unfold umat. cbn [c_create Z.eqb negb]. replace (Nat.ltb nstatv (ba_nh B)) with false by (symmetry; apply Nat.ltb_ge; exact Hn).
  cbn [Nat.ltb Nat.leb orb]. cbv zeta. fold (asked B a p). destruct (asked B a p); reflexivity.
Qed.
Lemma refused B dies nstatv junk a p models : (ba_nh B <= nstatv)%nat -> asked B a p = None ->
  exists p' m, umat B (Returns tt) dies 6 nstatv junk a p models = Back p' m /\ ap_pnewdt p' = 1 / 2 /\
    ap_stress p' = ap_stress p /\ ap_statev p' = ap_statev p /\ ap_ddsdde p' = ap_ddsdde p /\ ap_sse p' = ap_sse p /\ ap_spd p' = ap_spd p /\ ap_scd p' = ap_scd p.
Proof. intros Hn H. rewrite umat_eq, H by exact Hn. exists (cut_step p), (S models). repeat split. Qed.
Lemma released B nstatv junk a p models p' m : (ba_nh B <= nstatv)%nat -> umat B (Returns tt) (Returns tt) 6 nstatv junk a p models = Back p' m ->
  m = match asked B a p with Some _ => models | None => S models end.
Proof. intros Hn H. rewrite umat_eq in H by exact Hn. destruct (asked B a p); congruence. Qed.
Fixpoint umat_models (B : base) (nstatv : nat) (calls : list (ainc * apoint)) (models : nat) : nat :=
  match calls with
  | [] => models
  | (a, p) :: l => match umat B (Returns tt) (Returns tt) 6 nstatv 0 a p models with Back _ m => umat_models B nstatv l m | _ => models end
  end.
Lemma leak B nstatv : (ba_nh B <= nstatv)%nat -> forall calls models,
  umat_models B nstatv calls models = (models + length (filter (fun x => match asked B (fst x) (snd x) with None => true | Some _ => false end) calls))%nat.
Proof.
  intros Hn. induction calls as [|[a p] l IH]; intros models; cbn [umat_models filter fst snd length]; [lia |].
  rewrite umat_eq by exact Hn. destruct (asked B a p); rewrite IH; cbn [length]; lia.
Qed.
Lemma smaller B loads dies ntens nstatv junk a p models : (ntens < 6 \/ nstatv < ba_nh B)%nat -> loads = Returns tt -> umat B loads dies ntens nstatv junk a p models = Outside.
Proof.
  intros H ->. unfold umat. cbn [c_create Z.eqb negb]. replace (orb (Nat.ltb ntens 6) (Nat.ltb nstatv (ba_nh B))) with true; [reflexivity |].
  symmetry. apply Bool.orb_true_iff. rewrite !Nat.ltb_lt. exact H.
Qed.

(** the tangent *)
Definition new_stress (B : base) (nstatv : nat) (a : ainc) (p : apoint) (d : vec) : vec :=
  match umat B (Returns tt) (Returns tt) 6 nstatv 0 {| ai_stran := ai_stran a; ai_dstran := d; ai_time := ai_time a; ai_dtime := ai_dtime a; ai_temp := ai_temp a; ai_dtemp := ai_dtemp a |} p 0 with
  | Back p' _ => ap_stress p' | _ => fun _ => 0 end.
Definition new_ddsdde (B : base) (nstatv : nat) (a : ainc) (p : apoint) (d : vec) : mat :=
  match umat B (Returns tt) (Returns tt) 6 nstatv 0 {| ai_stran := ai_stran a; ai_dstran := d; ai_time := ai_time a; ai_dtime := ai_dtime a; ai_temp := ai_temp a; ai_dtemp := ai_dtemp a |} p 0 with
  | Back p' _ => ap_ddsdde p' | _ => fun _ _ => 0 end.
(** the update as a function of the new strain, and that its tangent is exact *)
Definition exact_tangent (B : base) (a : ainc) (p : apoint) (f : vec -> pres) : Prop :=
  (forall e, ba_update B {| ld_e := e; ld_T := ai_temp a + ai_dtemp a; ld_t := ai_time a + ai_dtime a |}
    {| ld_e := convertv (ai_stran a) imap emult; ld_T := ai_temp a; ld_t := ai_time a |} (convertv (ap_stress p) imap smult) (ap_statev p) (ap_sse p + ap_spd p) (ap_spd p) = Some (f e)) /\
  is_jac 6 6 (fun _ => True) (fun e => pr_s (f e)) (fun e => pr_A (f e)).
Definition strain_at (a : ainc) (d : vec) : vec := convertv (fun i => ai_stran a i + d i) imap emult.
Lemma new_stress_at B nstatv a p f d k : (ba_nh B <= nstatv)%nat -> exact_tangent B a p f -> (k < 6)%nat ->
  new_stress B nstatv a p d k = pr_s (f (strain_at a d)) (imap k) / smult k.
Proof.
  intros Hn [Hf _] Hk. unfold new_stress. rewrite umat_eq by exact Hn. unfold asked. cbn [ai_stran ai_dstran ai_time ai_dtime ai_temp ai_dtemp].
  rewrite Hf. cbn [ap_stress]. now apply bconvertv_at.
Qed.
Lemma new_ddsdde_at B nstatv a p f d k l : (ba_nh B <= nstatv)%nat -> exact_tangent B a p f -> (k < 6)%nat -> (l < 6)%nat ->
  new_ddsdde B nstatv a p d k l = pr_A (f (strain_at a d)) (imap k) (imap l) / (smult k * emult l).
Proof.
  intros Hn [Hf _] Hk Hl. unfold new_ddsdde. rewrite umat_eq by exact Hn. unfold asked. cbn [ai_stran ai_dstran ai_time ai_dtime ai_temp ai_dtemp].
  rewrite Hf. cbn [ap_ddsdde]. rewrite bconvertt_at by assumption. reflexivity.
Qed.
Definition half_shear (D : mat) : mat := fun k l => D k l * (if Nat.ltb l 3 then 1 else 1 / 2).
Lemma tangent_halved B nstatv a p f : (ba_nh B <= nstatv)%nat -> exact_tangent B a p f ->
  is_jac 6 6 (fun _ => True) (new_stress B nstatv a p) (fun d => half_shear (new_ddsdde B nstatv a p d)).
Proof.
  intros Hn Hf c t v Hc _ k Hk.
  assert (He : path 6 (fun u => strain_at a (c u)) t (fun j => v (imap j) * emult j)).
  { intros j Hj. unfold strain_at, convertv. replace (Nat.ltb j 6) with true by (symmetry; apply Nat.ltb_lt; exact Hj).
    eapply D_eq; [apply D_mult; [apply D_plus; [apply D_const | exact (Hc (imap j) (imap_lt j Hj))] | apply D_const] | cbv beta; ring]. }
  pose proof (proj2 Hf (fun u => strain_at a (c u)) t _ He I (imap k) (imap_lt k Hk)) as Hd. cbv beta in Hd.
  apply (D_ext (fun u => pr_s (f (strain_at a (c u))) (imap k) * / smult k)).
  { intros u. rewrite (new_stress_at B nstatv a p f (c u) k Hn Hf Hk). reflexivity. }
  eapply D_eq; [apply D_mult; [exact Hd | apply D_const] |].
  unfold mv. rewrite Rmult_0_r, Rplus_0_r.
  rewrite (rsum_ext 6 (fun l => half_shear (new_ddsdde B nstatv a p (c t)) k l * v l)
    (fun l => pr_A (f (strain_at a (c t))) (imap k) (imap l) * emult l * v l * / smult k)).
  - cbn [rsum]. cbn [imap]. pose proof (smult_nz k). unfold emult. cbn [Nat.ltb Nat.leb]. ring.
  - intros l Hl. unfold half_shear. rewrite (new_ddsdde_at B nstatv a p f (c t) k l Hn Hf Hk Hl).
    pose proof (smult_nz k). unfold emult. destruct (Nat.ltb l 3); [field; auto |].
    pose proof sqrt2_nz. replace (sqrt 2 / 2) with (/ sqrt 2) at 2 by (apply Rmult_eq_reg_l with (sqrt 2); [| assumption]; rewrite Rinv_r by assumption; unfold Rdiv; rewrite <- Rmult_assoc, sqrt22; lra).
    field. auto.
Qed.
