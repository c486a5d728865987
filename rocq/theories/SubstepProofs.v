From Verif Require Import Base.
From Verif Require Import Diff SolverModel SubstepModel SubstepSpec.

Lemma on_path_load_at l0 l1 f : on_path l0 l1 f (load_at l0 l1 f).
Proof. unfold on_path, load_at; simpl. repeat split; intros; ring. Qed.

Lemma on_path_0 l0 l1 : on_path l0 l1 0 l0.
Proof. unfold on_path. repeat split; intros; ring. Qed.

Lemma on_path_1 l0 l1 l : on_path l0 l1 1 l -> same_load l l1.
Proof.
  intros (H1 & H2 & H3). unfold same_load. repeat split; intros; rewrite ?H1, ?H2, ?H3; ring.
Qed.

Lemma pow2_pos k : (0 < Nat.pow 2 k)%nat.
Proof. induction k; simpl; lia. Qed.

Lemma INR_pow2 k : INR (Nat.pow 2 k) = 2 ^ k.
Proof. rewrite pow_INR. reflexivity. Qed.

Lemma half_pow k : (Nat.pow 2 (S k) / 2 = Nat.pow 2 k)%nat.
Proof. rewrite Nat.pow_succ_r', Nat.mul_comm. apply Nat.div_mul. lia. Qed.

Lemma cm_frac nd md : (nd <= md)%nat ->
  INR (Nat.pow 2 (md - nd)) / INR (Nat.pow 2 md) = (/ 2) ^ nd.
Proof.
  intros H. rewrite !INR_pow2. replace md with (md - nd + nd)%nat at 2 by lia.
  rewrite pow_add, pow_inv. field. split; apply pow_nonzero; lra.
Qed.

(** loop invariant: cm = 2^(md-nd), cm divides cs, cs <= tf *)
Lemma substep_loop_chain {St} np (step : stepper St) md force l0 l1 :
  forall fuel nd j past st A calls stN AN c,
  (nd <= md)%nat -> (j <= Nat.pow 2 nd)%nat ->
  on_path l0 l1 (INR (j * Nat.pow 2 (md - nd)) / INR (Nat.pow 2 md)) past ->
  substep_loop fuel np step md force l0 l1 (Nat.pow 2 md) nd (Nat.pow 2 (md - nd))
    (j * Nat.pow 2 (md - nd)) past st A calls = Ok (stN, AN, c) ->
  exists fs, chain np step md l0 l1 (INR (j * Nat.pow 2 (md - nd)) / INR (Nat.pow 2 md)) past st A fs stN AN.
Proof.
  induction fuel as [|fuel IH]; intros nd j past st A calls stN AN c Hnd Hj Hp H; [discriminate|].
  cbn [substep_loop] in H.
  assert (Htf : (Nat.pow 2 md = Nat.pow 2 nd * Nat.pow 2 (md - nd))%nat).
  { rewrite <- Nat.pow_add_r. f_equal. lia. }
  assert (Hcm := pow2_pos (md - nd)). assert (Htf0 := pow2_pos md).
  assert (HtfR : 0 < INR (2 ^ md)) by (apply lt_0_INR; exact Htf0).
  destruct (Nat.ltb_spec (j * 2 ^ (md - nd)) (2 ^ md)) as [Hlt|Hge].
  - assert (Hjlt : (j < 2 ^ nd)%nat) by nia.
    set (sm := INR (j * 2 ^ (md - nd) + 2 ^ (md - nd)) / INR (2 ^ md)) in *.
    assert (Hhalf : forall n', n' = S nd -> (n' <= md)%nat ->
       on_path l0 l1 (INR (j * 2 * 2 ^ (md - n')) / INR (2 ^ md)) past /\
       (2 ^ (md - nd) / 2 = 2 ^ (md - n'))%nat /\ (j * 2 ^ (md - nd) = j * 2 * 2 ^ (md - n'))%nat /\
       (j * 2 <= 2 ^ n')%nat).
    { intros n' -> Hn'. assert (E : (2 ^ (md - nd) = 2 * 2 ^ (md - S nd))%nat).
      { replace (md - nd)%nat with (S (md - S nd)) by lia. apply Nat.pow_succ_r'. }
      assert (E2 : (j * 2 ^ (md - nd) = j * 2 * 2 ^ (md - S nd))%nat) by (rewrite E; ring).
      split; [rewrite <- E2; exact Hp|]. split; [|split; [exact E2|]].
      - rewrite E, Nat.mul_comm. apply Nat.div_mul. lia.
      - rewrite Nat.pow_succ_r'. lia. }
    destruct (step (load_at l0 l1 sm) past st) as [[[st' A_inc] E_inc]|] eqn:Es.
    + destruct (force && Nat.ltb nd md) eqn:Ef.
      * apply andb_true_iff in Ef. destruct Ef as [_ Ef]. apply Nat.ltb_lt in Ef.
        destruct (Hhalf (S nd) eq_refl ltac:(lia)) as (Hp' & E1 & E2 & E3).
        rewrite E1, E2 in H. apply IH in H; auto. rewrite E2. exact H.
      * set (f := INR (j * 2 ^ (md - nd)) / INR (2 ^ md)) in *.
        assert (Esm : sm = INR (S j * 2 ^ (md - nd)) / INR (2 ^ md)).
        { unfold sm. do 2 f_equal. lia. }
        assert (Edf : sm = f + (/ 2) ^ nd).
        { rewrite <- (cm_frac nd md Hnd). unfold sm, f. rewrite plus_INR. field. lra. }
        replace (j * 2 ^ (md - nd) + 2 ^ (md - nd))%nat with (S j * 2 ^ (md - nd))%nat in H by lia.
        apply IH in H; [|exact Hnd|lia|rewrite <- Esm; apply on_path_load_at].
        destruct H as (fs & Hc). rewrite <- Esm in Hc. exists (sm :: fs).
        eapply chain_step with (k := nd); [exact Hp|apply on_path_load_at|exact Edf|exact Hnd| |exact Es|].
        -- rewrite Esm. apply (Rmult_le_reg_r (INR (2 ^ md))); [exact HtfR|].
           unfold Rdiv. rewrite Rmult_assoc, Rinv_l, Rmult_1_r, Rmult_1_l by lra.
           apply le_INR. nia.
        -- unfold tangent_update in Hc. rewrite (cm_frac nd md Hnd) in Hc.
           replace (sm - f) with ((/ 2) ^ nd) by lra. exact Hc.
    + destruct (Nat.leb_spec md (S nd)) as [Hle|Hgt]; [discriminate|].
      destruct (Hhalf (S nd) eq_refl ltac:(lia)) as (Hp' & E1 & E2 & E3).
      rewrite E1, E2 in H. apply IH in H; auto; [|lia]. rewrite E2. exact H.
  - injection H as <- <- <-. exists [].
    assert (E : (j * 2 ^ (md - nd) = 2 ^ md)%nat) by nia.
    rewrite E in *. assert (E1 : INR (2 ^ md) / INR (2 ^ md) = 1) by (field; lra).
    rewrite E1 in *. now constructor.
Qed.

Lemma substep_covers {St} np (step : stepper St) md force l0 l1 st stN AN c :
  substep_update np step md force l0 l1 st = Ok (stN, AN, c) ->
  exists fs, chain np step md l0 l1 0 l0 st (fun _ _ => 0) fs stN AN.
Proof.
  unfold substep_update. intros H.
  assert (E0 : INR (0 * 2 ^ (md - 0)) / INR (2 ^ md) = 0) by (simpl; unfold Rdiv; ring).
  assert (HH := substep_loop_chain np step md force l0 l1 (S (2 ^ md + md)) 0 0 l0 st (fun _ _ => 0) 0 stN AN c).
  rewrite E0 in HH. apply HH.
  - lia. - simpl; lia. - apply on_path_0.
  - rewrite Nat.sub_0_r. exact H.
Qed.

(** termination and bounded work *)
Lemma substep_loop_work {St} np (step : stepper St) md force l0 l1 tf :
  forall fuel nd cm cs past st A calls,
  (nd <= md)%nat -> (Nat.pow 2 (md - nd) <= cm)%nat ->
  ((tf - cs) + (md - nd) < fuel)%nat ->
  match substep_loop fuel np step md force l0 l1 tf nd cm cs past st A calls with
  | Ok (_, _, c) => (c <= calls + (tf - cs) + (md - nd))%nat
  | Throw OutOfFuel => False
  | Throw _ => True
  end.
Proof.
  induction fuel as [|fuel IH]; intros nd cm cs past st A calls Hnd Hcm Hf; [lia|].
  assert (Hc0 := pow2_pos (md - nd)).
  cbn [substep_loop]. destruct (Nat.ltb_spec cs tf) as [Hlt|Hge]; [|lia].
  assert (Hhalf : (S nd <= md)%nat -> (2 ^ (md - S nd) <= cm / 2)%nat).
  { intros Hn. replace (md - nd)%nat with (S (md - S nd)) in Hcm by lia.
    rewrite Nat.pow_succ_r' in Hcm. apply Nat.div_le_lower_bound; lia. }
  destruct (step (load_at l0 l1 (INR (cs + cm) / INR tf)) past st) as [[[st' A_inc] E_inc]|].
  - destruct (force && Nat.ltb nd md) eqn:Ef.
    + apply andb_true_iff in Ef. destruct Ef as [_ Ef]. apply Nat.ltb_lt in Ef.
      match goal with |- match ?x with _ => _ end => 
        assert (HH := IH (S nd) (cm / 2)%nat cs past st A (S calls) ltac:(lia) (Hhalf ltac:(lia)) ltac:(lia)); fold x in HH; destruct x as [[[? ?] c]|[]] end; try exact I; lia.
    + match goal with |- match ?x with _ => _ end => 
        assert (HH := IH nd cm (cs + cm)%nat (load_at l0 l1 (INR (cs + cm) / INR tf)) st'
          (tangent_update np A_inc E_inc A (INR cm / INR tf)) (S calls) ltac:(lia) Hcm ltac:(lia)); fold x in HH; destruct x as [[[? ?] c]|[]] end; try exact I; lia.
  - destruct (Nat.leb_spec md (S nd)); [exact I|].
    match goal with |- match ?x with _ => _ end => 
        assert (HH := IH (S nd) (cm / 2)%nat cs past st A (S calls) ltac:(lia) (Hhalf ltac:(lia)) ltac:(lia)); fold x in HH; destruct x as [[[? ?] c]|[]] end; try exact I; lia.
Qed.

Lemma substep_terminates {St} np (step : stepper St) md force l0 l1 st :
  substep_update np step md force l0 l1 st <> Throw OutOfFuel.
Proof.
  unfold substep_update. intros E.
  assert (H := substep_loop_work np step md force l0 l1 (2 ^ md) (S (2 ^ md + md)) 0 (2 ^ md) 0 l0 st (fun _ _ => 0) 0
    ltac:(lia) ltac:(rewrite Nat.sub_0_r; lia) ltac:(lia)).
  rewrite E in H. exact H.
Qed.

Lemma substep_work {St} np (step : stepper St) md force l0 l1 st stN AN c :
  substep_update np step md force l0 l1 st = Ok (stN, AN, c) -> (c <= 2 ^ md + md)%nat.
Proof.
  unfold substep_update. intros E.
  assert (H := substep_loop_work np step md force l0 l1 (2 ^ md) (S (2 ^ md + md)) 0 (2 ^ md) 0 l0 st (fun _ _ => 0) 0
    ltac:(lia) ltac:(rewrite Nat.sub_0_r; lia) ltac:(lia)).
  rewrite E in H. lia.
Qed.

(** if the whole step succeeds at once (and splitting is not forced) it is the
    only one taken *)
Lemma substep_single {St} np (step : stepper St) md l0 l1 st st' A_inc E_inc :
  step (load_at l0 l1 1) l0 st = Some (st', A_inc, E_inc) ->
  exists AN, substep_update np step md false l0 l1 st = Ok (st', AN, 1%nat) /\
    forall i j, AN i j = mm np A_inc E_inc i j.
Proof.
  intros H. unfold substep_update.
  assert (Hp := pow2_pos md). cbn [substep_loop].
  destruct (Nat.ltb_spec 0 (2 ^ md)); [|lia].
  assert (E1 : INR (2 ^ md) / INR (2 ^ md) = 1).
  { field. apply not_0_INR. lia. }
  rewrite Nat.add_0_l, E1, H. cbn [andb].
  exists (tangent_update np A_inc E_inc (fun _ _ => 0) 1). split.
  - destruct (2 ^ md + md)%nat eqn:E; [lia|]. cbn [substep_loop].
    destruct (Nat.ltb_spec (2 ^ md) (2 ^ md)); [lia|]. reflexivity.
  - intros i j. unfold tangent_update, mm. apply rsum_ext. intros k _. ring.
Qed.
