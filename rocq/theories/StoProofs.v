(** Proofs for C103. *)
From Coq Require Import Arith Bool List Lia.
From Verif Require Import Base.
From Verif Require Import StoModel.
From Verif Require Import StoSpec.
Import ListNotations.

Definition good (nb : nat) (s : mstate) (t : tobj) : Prop :=
  if t_own t then (nb <= t_blk t < m_next s)%nat /\ m_live s (t_blk t) = true /\ t_off t = 0%nat
  else (t_blk t < nb)%nat.
Definition inv (nb : nat) (s : mstate) (a : vstate) : Prop :=
  same_objects nb s a /\ (nb <= m_next s)%nat /\
  (forall x t, m_env s x = Some t -> good nb s t) /\
  (forall x y t u, m_env s x = Some t -> m_env s y = Some u -> t_own t = true -> t_own u = true ->
                   t_blk t = t_blk u -> x = y) /\
  (forall b, m_live s b = true -> (nb <= b < m_next s)%nat) /\ no_leak s.

Lemma wr_out cell b off n f b' j : b' <> b -> wr cell b off n f b' j = cell b' j.
Proof. intros H. unfold wr. apply Nat.eqb_neq in H. now rewrite H. Qed.
Lemma wr_in cell b off n f i : (i < n)%nat -> wr cell b off n f b (off + i)%nat = f i.
Proof.
  intros H. unfold wr. rewrite Nat.eqb_refl. 
  assert (X : Nat.leb off (off + i) = true) by (apply Nat.leb_le; lia).
  assert (Y : Nat.ltb (off + i) (off + n) = true) by (apply Nat.ltb_lt; lia).
  rewrite X, Y. cbn. f_equal. lia.
Qed.

Lemma inv_lookup nb s a x t : inv nb s a -> m_env s x = Some t ->
  exists o, v_env a x = Some o /\ t_n t = vsize o /\ t_own t = (match o with VOwn _ _ => true | _ => false end) /\
    (forall i, (i < vsize o)%nat -> rd s t i = vget a o i) /\
    match o with VWin b off _ => t_blk t = b /\ t_off t = off | _ => True end.
Proof.
  intros ((_ & H) & _) E. specialize (H x). rewrite E in H. destruct (v_env a x) as [o|]; [|contradiction].
  exists o. auto.
Qed.
Lemma inv_lookup_v nb s a x o : inv nb s a -> v_env a x = Some o ->
  exists t, m_env s x = Some t /\ t_n t = vsize o /\ t_own t = (match o with VOwn _ _ => true | _ => false end) /\
    (forall i, (i < vsize o)%nat -> rd s t i = vget a o i) /\
    match o with VWin b off _ => t_blk t = b /\ t_off t = off | _ => True end.
Proof.
  intros ((_ & H) & _) E. specialize (H x). rewrite E in H. destruct (m_env s x) as [t|]; [|contradiction].
  exists t. auto.
Qed.
Lemma inv_none nb s a x : inv nb s a -> (m_env s x = None <-> v_env a x = None).
Proof.
  intros ((_ & H) & _). specialize (H x). destruct (m_env s x), (v_env a x); try contradiction; split; congruence.
Qed.
Lemma inv_free nb s a x : inv nb s a -> free_name (m_env s) x = vfree a x.
Proof.
  intros I. pose proof (inv_none nb s a x I) as H. unfold free_name, vfree.
  destruct (m_env s x), (v_env a x); auto; [destruct H as [_ H]; specialize (H eq_refl)|destruct H as [H _]; specialize (H eq_refl)]; discriminate.
Qed.
Lemma inv_usable nb s a x t : inv nb s a -> m_env s x = Some t -> usable nb s t = true.
Proof.
  intros (_ & _ & G & _) E. specialize (G x t E). unfold good in G. unfold usable.
  destruct (t_own t); [destruct G as (_ & G & _); rewrite G; apply orb_true_r|].
  apply Nat.ltb_lt in G. now rewrite G.
Qed.

(** writing *)
Lemma into_inv nb s a x t o f g : inv nb s a -> m_env s x = Some t -> v_env a x = Some o ->
  (forall i, (i < vsize o)%nat -> f i = g i) ->
  exists s', into nb s t f = MOk s' /\ inv nb s' (vset a x o g).
Proof.
  intros I Et Eo F. unfold into. rewrite (inv_usable nb s a x t I Et).
  eexists. split; [reflexivity|].
  destruct (inv_lookup nb s a x t I Et) as (o' & Eo' & Hn & Hw & Hr & Hp).
  assert (o' = o) by congruence. subst o'.
  destruct I as ((HA & HE) & HN & HG & HD & HL & HK).
  pose proof (HG x t Et) as Gt. unfold good in Gt.
  split; [|split; [exact HN|split; [exact HG|split; [exact HD|split; [exact HL|exact HK]]]]].
  destruct o as [n v|b off n]; cbn [vsize] in *; rewrite Hw in Gt.
  - destruct Gt as (Gb & Gl & Go). split.
    + intros b j Hb. cbn [m_cell vset v_arr]. rewrite wr_out by lia. auto.
    + intros y. cbn [m_env vset v_env]. specialize (HE y). destruct (Nat.eqb y x) eqn:Y.
      * apply Nat.eqb_eq in Y. subst y. rewrite Et. cbn [vsize]. split; auto. split; auto. split; auto.
        intros i Hi. unfold rd. cbn [m_cell vget]. rewrite wr_in by lia. auto.
      * destruct (m_env s y) as [u|] eqn:Eu; [|exact HE]. destruct (v_env a y) as [p|]; [|contradiction].
        destruct HE as (En & Ew & Er & Ep). refine (conj En (conj Ew (conj _ Ep))).
        intros i Hi. specialize (Er i Hi). unfold rd in *. cbn [m_cell].
        assert (t_blk u <> t_blk t).
        { intros K. destruct p as [m w|c d m].
          - apply Nat.eqb_neq in Y. apply Y. apply (HD y x u t); auto.
          - pose proof (HG y u Eu) as Gu. unfold good in Gu. rewrite Ew in Gu. lia. }
        rewrite wr_out by auto. rewrite Er. destruct p; reflexivity.
  - destruct Hp as (<- & <-).
    assert (X : forall b' j, (b' < nb)%nat -> wr (m_cell s) (t_blk t) (t_off t) (t_n t) f b' j =
      (if Nat.eqb b' (t_blk t) && (Nat.leb (t_off t) j && Nat.ltb j (t_off t + n)) then g (j - t_off t)%nat else v_arr a b' j)).
    { intros b' j Hb. unfold wr. rewrite Hn.
      destruct (Nat.eqb b' (t_blk t) && (Nat.leb (t_off t) j && Nat.ltb j (t_off t + n))) eqn:E; [|auto].
      rewrite !andb_true_iff, Nat.leb_le, Nat.ltb_lt in E. apply F. lia. }
    split; [exact X|].
    intros y. cbn [m_env vset v_env]. specialize (HE y).
    destruct (m_env s y) as [u|] eqn:Eu; [|exact HE]. destruct (v_env a y) as [p|]; [|contradiction].
    destruct HE as (En & Ew & Er & Ep). refine (conj En (conj Ew (conj _ Ep))).
    intros i Hi. specialize (Er i Hi). pose proof (HG y u Eu) as Gu. unfold good in Gu. rewrite Ew in Gu.
    unfold rd in *. cbn [m_cell]. destruct p as [m w|c d m].
    + rewrite wr_out by lia. exact Er.
    + destruct Ep as (<- & <-). cbn [vget v_arr]. apply X. exact Gu.
Qed.

(** a new block *)
Lemma fresh_inv nb s a x n f g : inv nb s a -> m_env s x = None -> (forall i, (i < n)%nat -> f i = g i) ->
  exists s', fresh s x n f = MOk s' /\ inv nb s' (vmake a x (Some (VOwn n g))).
Proof.
  intros ((HA & HE) & HN & HG & HD & HL & HK) Ex F. unfold fresh. eexists. split; [reflexivity|].
  assert (Old : forall y u, m_env s y = Some u -> t_blk u <> m_next s).
  { intros y u Eu. specialize (HG y u Eu). unfold good in HG. destruct (t_own u); lia. }
  unfold inv, same_objects, no_leak. cbn [m_cell m_live m_next m_env v_arr vmake v_env]. split; [split|split; [|split; [|split; [|split]]]].
  - intros b j Hb. rewrite wr_out by lia. auto.
  - intros y. unfold bind. specialize (HE y). destruct (Nat.eqb y x) eqn:Y.
    + cbn [vsize t_n t_own]. split; auto. split; auto. split; auto. intros i Hi. unfold rd. cbn [m_cell t_blk t_off vget].
      rewrite wr_in by exact Hi. auto.
    + destruct (m_env s y) as [u|] eqn:Eu; [|exact HE]. destruct (v_env a y) as [p|]; [|contradiction].
      destruct HE as (En & Ew & Er & Ep). refine (conj En (conj Ew (conj _ Ep))).
      intros i Hi. specialize (Er i Hi). unfold rd in *. cbn [m_cell]. rewrite wr_out by eauto. rewrite Er. destruct p; reflexivity.
  - lia.
  - intros y u. unfold bind. destruct (Nat.eqb y x).
    + intros E. injection E as <-. unfold good. cbn. rewrite Nat.eqb_refl. repeat split; lia.
    + intros E. pose proof (HG y u E) as G. unfold good in *. cbn [m_next m_live]. destruct (t_own u); [|exact G].
      destruct G as (G1 & G2 & G3). split; [lia|]. split; auto. destruct (Nat.eqb (t_blk u) (m_next s)); auto.
  - intros y z t u. unfold bind. destruct (Nat.eqb y x) eqn:Y, (Nat.eqb z x) eqn:Z.
    + apply Nat.eqb_eq in Y, Z. congruence.
    + intros E1 E2 _ _ K. injection E1 as <-. cbn in K. exfalso. exact (Old z u E2 (eq_sym K)).
    + intros E1 E2 _ _ K. injection E2 as <-. cbn in K. exfalso. exact (Old y t E1 K).
    + apply HD.
  - intros b H. destruct (Nat.eqb b (m_next s)) eqn:B; [apply Nat.eqb_eq in B; lia|]. specialize (HL b H). lia.
  - intros b H. destruct (Nat.eqb b (m_next s)) eqn:B.
    + apply Nat.eqb_eq in B. exists x. unfold bind. rewrite Nat.eqb_refl. eexists. split; [reflexivity|]. cbn. auto.
    + destruct (HK b H) as (y & t & E & O & K). exists y, t. unfold bind. destruct (Nat.eqb y x) eqn:Y; auto.
      apply Nat.eqb_eq in Y. congruence.
Qed.

(** a new window *)
Lemma window_inv nb s a x b off n : inv nb s a -> m_env s x = None -> (b < nb)%nat ->
  inv nb (mkM (m_cell s) (m_live s) (m_next s) (bind (m_env s) x (Some (mkT b off n false))))
         (vmake a x (Some (VWin b off n))).
Proof.
  intros ((HA & HE) & HN & HG & HD & HL & HK) Ex Hb.
  unfold inv, same_objects, no_leak. cbn [m_cell m_live m_next m_env v_arr vmake v_env].
  split; [split; [exact HA|]|split; [exact HN|split; [|split; [|split; [exact HL|]]]]].
  - intros y. unfold bind. specialize (HE y). destruct (Nat.eqb y x).
    + cbn. repeat split. intros i Hi. unfold rd. cbn. auto.
    + destruct (m_env s y) as [u|]; [|exact HE]. destruct (v_env a y) as [p|]; [|contradiction].
      destruct HE as (En & Ew & Er & Ep). refine (conj En (conj Ew (conj _ Ep))).
      intros i Hi. specialize (Er i Hi). unfold rd in *. cbn [m_cell]. rewrite Er. destruct p; reflexivity.
  - intros y u. unfold bind. destruct (Nat.eqb y x).
    + intros E. injection E as <-. exact Hb.
    + intros E. exact (HG y u E).
  - intros y z t u. unfold bind. destruct (Nat.eqb y x) eqn:Y, (Nat.eqb z x) eqn:Z.
    + intros E1 E2 O. injection E1 as <-. discriminate.
    + intros E1 E2 O. injection E1 as <-. discriminate.
    + intros E1 E2 _ O. injection E2 as <-. discriminate.
    + apply HD.
  - intros c H. destruct (HK c H) as (y & t & E & O & K). exists y, t. unfold bind. destruct (Nat.eqb y x) eqn:Y; auto.
    apply Nat.eqb_eq in Y. congruence.
Qed.

(** deleting *)
Lemma delete_inv nb s a x t o : inv nb s a -> m_env s x = Some t -> v_env a x = Some o ->
  exists s', sstep false nb s (SDel x) = MOk s' /\ inv nb s' (vmake a x None).
Proof.
  intros I Et Eo. destruct I as ((HA & HE) & HN & HG & HD & HL & HK). cbn [sstep]. rewrite Et.
  pose proof (HG x t Et) as Gt. unfold good in Gt.
  assert (V : forall live, (forall y, match (bind (m_env s) x None) y, v_env (vmake a x None) y with
            | None, None => True
            | Some t, Some o => t_n t = vsize o /\ t_own t = (match o with VOwn _ _ => true | _ => false end) /\
               (forall i, (i < vsize o)%nat -> rd (mkM (m_cell s) live (m_next s) (bind (m_env s) x None)) t i = vget (vmake a x None) o i) /\
               match o with VWin b off _ => t_blk t = b /\ t_off t = off | _ => True end
            | _, _ => False end)).
  { intros live y. cbn [vmake v_env]. unfold bind. specialize (HE y). destruct (Nat.eqb y x); [exact Logic.I|].
    destruct (m_env s y) as [u|]; [|exact HE]. destruct (v_env a y) as [p|]; [|contradiction].
    destruct HE as (En & Ew & Er & Ep). refine (conj En (conj Ew (conj _ Ep))).
    intros i Hi. specialize (Er i Hi). unfold rd in *. cbn [m_cell]. rewrite Er. destruct p; reflexivity. }
  assert (Ub : forall y u, bind (m_env s) x None y = Some u -> m_env s y = Some u /\ y <> x).
  { intros y u. unfold bind. destruct (Nat.eqb y x) eqn:Y; [discriminate|]. apply Nat.eqb_neq in Y. auto. }
  destruct (t_own t) eqn:O.
  - destruct Gt as (G1 & G2 & G3). assert (L : Nat.leb nb (t_blk t) = true) by (apply Nat.leb_le; lia).
    rewrite L, G2, G3. cbn [andb Nat.eqb]. eexists. split; [reflexivity|].
    unfold inv, same_objects, no_leak. cbn [m_cell m_live m_next m_env].
    split; [split; [exact HA|apply V]|]. split; [exact HN|]. split; [|split; [|split]].
    + intros y u E. apply Ub in E as (E & N). pose proof (HG y u E) as G. unfold good in *. cbn [m_next m_live].
      destruct (t_own u) eqn:Ou; [|exact G]. destruct G as (K1 & K2 & K3). split; auto. split; auto.
      destruct (Nat.eqb (t_blk u) (t_blk t)) eqn:B; auto. apply Nat.eqb_eq in B. exfalso. apply N. exact (HD y x u t E Et Ou O B).
    + intros y z u w E1 E2. apply Ub in E1 as (E1 & _). apply Ub in E2 as (E2 & _). now apply HD.
    + intros b H. destruct (Nat.eqb b (t_blk t)); [discriminate|]. auto.
    + intros b H. destruct (Nat.eqb b (t_blk t)) eqn:B; [discriminate|]. destruct (HK b H) as (y & u & E & Ou & K).
      exists y, u. unfold bind. destruct (Nat.eqb y x) eqn:Y; auto. apply Nat.eqb_eq in Y. apply Nat.eqb_neq in B. exfalso. apply B. congruence.
  - eexists. split; [reflexivity|].
    unfold inv, same_objects, no_leak. cbn [m_cell m_live m_next m_env].
    split; [split; [exact HA|apply V]|]. split; [exact HN|]. split; [|split; [|split; [exact HL|]]].
    + intros y u E. apply Ub in E as (E & N). exact (HG y u E).
    + intros y z u w E1 E2. apply Ub in E1 as (E1 & _). apply Ub in E2 as (E2 & _). now apply HD.
    + intros b H. destruct (HK b H) as (y & u & E & Ou & K). exists y, u. unfold bind. destruct (Nat.eqb y x) eqn:Y; auto.
      apply Nat.eqb_eq in Y. congruence.
Qed.

Lemma inv_cells nb s a c : inv nb s a -> (forall b j, c b j = m_cell s b j) -> inv nb (mkM c (m_live s) (m_next s) (m_env s)) a.
Proof.
  intros ((HA & HE) & HR) H. split; [|exact HR]. split.
  - intros b j Hb. cbn [m_cell]. rewrite H. auto.
  - intros y. cbn [m_env]. specialize (HE y). destruct (m_env s y) as [u|]; [|exact HE]. destruct (v_env a y) as [p|]; [|contradiction].
    destruct HE as (En & Ew & Er & Ep). refine (conj En (conj Ew (conj _ Ep))).
    intros i Hi. rewrite <- (Er i Hi). unfold rd. cbn [m_cell]. apply H.
Qed.
Lemma add_loop_spec cell t u k : (t_blk u = t_blk t -> ~ (t_off u < t_off t < t_off u + k)%nat) ->
  forall b j, add_loop cell t u k b j =
    wr cell (t_blk t) (t_off t) k (fun i => cell (t_blk t) (t_off t + i)%nat + cell (t_blk u) (t_off u + i)%nat) b j.
Proof.
  induction k as [|k IH]; intros H b j.
  - cbn [add_loop]. unfold wr. destruct (Nat.eqb b (t_blk t)); [|reflexivity]. cbn [andb].
    destruct (Nat.leb (t_off t) j) eqn:E1, (Nat.ltb j (t_off t + 0)) eqn:E2; try reflexivity.
    apply Nat.leb_le in E1. apply Nat.ltb_lt in E2. lia.
  - assert (H' : t_blk u = t_blk t -> ~ (t_off u < t_off t < t_off u + k)%nat) by (intros E; specialize (H E); lia).
    specialize (IH H'). cbn [add_loop]. unfold wr at 1. rewrite !IH.
    destruct (Nat.eqb b (t_blk t)) eqn:B; [apply Nat.eqb_eq in B; subst b|now unfold wr; rewrite B].
    cbn [andb]. destruct (Nat.eq_dec j (t_off t + k)) as [->|N].
    + assert (X : Nat.leb (t_off t + k) (t_off t + k) && Nat.ltb (t_off t + k) (t_off t + k + 1) = true).
      { rewrite Nat.leb_refl. apply Nat.ltb_lt. lia. }
      rewrite X, (wr_in cell (t_blk t) (t_off t) (S k)) by lia. f_equal.
      * unfold wr. rewrite Nat.eqb_refl. assert (Y : Nat.ltb (t_off t + k) (t_off t + k) = false) by (apply Nat.ltb_irrefl).
        now rewrite Y, andb_false_r.
      * unfold wr. destruct (Nat.eqb (t_blk u) (t_blk t)) eqn:E; [|reflexivity]. apply Nat.eqb_eq in E. specialize (H E).
        cbn [andb]. destruct (Nat.leb (t_off t) (t_off u + k)) eqn:E1; [|reflexivity].
        destruct (Nat.ltb (t_off u + k) (t_off t + k)) eqn:E2; [|reflexivity].
        apply Nat.leb_le in E1. apply Nat.ltb_lt in E2. lia.
    + assert (X : Nat.leb (t_off t + k) j && Nat.ltb j (t_off t + k + 1) = false).
      { apply andb_false_iff. rewrite Nat.leb_gt, Nat.ltb_ge. lia. }
      rewrite X. unfold wr. rewrite Nat.eqb_refl. cbn [andb]. destruct (Nat.leb (t_off t) j) eqn:E1; [|reflexivity].
      cbn [andb]. assert (Y : Nat.ltb j (t_off t + S k) = Nat.ltb j (t_off t + k)).
      { destruct (Nat.ltb j (t_off t + k)) eqn:E2; [apply Nat.ltb_lt in E2; apply Nat.ltb_lt|apply Nat.ltb_ge in E2; apply Nat.ltb_ge]; lia. }
      now rewrite Y.
Qed.

Definition agrees (nb : nat) (r : mres) (v : vres) : Prop :=
  match v with
  | VOk a => exists s, r = MOk s /\ inv nb s a
  | VThrow => r = MThrow
  | VIll => True
  end.

Lemma assign_agrees nb s a x y : inv nb s a ->
  agrees nb (match m_env s x, m_env s y with
    | Some t, Some u => if Nat.eqb (t_n t) (t_n u) then
                          if usable nb s u then into nb s t (rd s u) else MFault else MThrow
    | _, _ => MFault end)
   (match v_env a x, v_env a y with
    | Some t, Some u => if Nat.eqb (vsize t) (vsize u) then VOk (vset a x t (vget a u)) else VThrow
    | _, _ => VIll end).
Proof.
  intros I. destruct (v_env a x) as [o|] eqn:Ex; [|exact Logic.I]. destruct (v_env a y) as [p|] eqn:Ey; [|exact Logic.I].
  destruct (inv_lookup_v nb s a x o I Ex) as (t & Et & Hn & _). destruct (inv_lookup_v nb s a y p I Ey) as (u & Eu & Kn & _ & Kr & _).
  rewrite Et, Eu, Hn, Kn. destruct (Nat.eqb (vsize o) (vsize p)) eqn:E; [|reflexivity].
  rewrite (inv_usable nb s a y u I Eu). apply (into_inv nb s a x t o _ _ I Et Ex). apply Nat.eqb_eq in E. intros i Hi. apply Kr. lia.
Qed.

Lemma sized_suits q n : sized q n = suits q n.
Proof. destruct q; reflexivity. Qed.
Lemma step_agrees q nb s a op : inv nb s a -> spared q a op -> agrees nb (sstep q nb s op) (vstep q nb a op).
Proof.
  intros I S. destruct op as [x n|x n v|x b off n|x y|x y|x y|x y|x i v|x k|x y|x|x]; cbn [vstep spared] in *.
  - cbn [sstep]. rewrite (inv_free nb s a x I), sized_suits. destruct (vfree a x) eqn:F; [|exact Logic.I]. destruct (suits q n); [|exact Logic.I]. cbn [andb].
    apply fresh_inv; auto; [|intros i _; destruct q; [do 4 (destruct i as [|i]; [reflexivity|])|]; reflexivity]. apply (inv_none nb s a x I). unfold vfree in F. destruct (v_env a x); [discriminate|reflexivity].
  - cbn [sstep]. rewrite (inv_free nb s a x I), sized_suits. destruct (vfree a x) eqn:F; [|exact Logic.I]. destruct (suits q n); [|exact Logic.I]. cbn [andb].
    apply fresh_inv; auto. apply (inv_none nb s a x I). unfold vfree in F. destruct (v_env a x); [discriminate|reflexivity].
  - cbn [sstep]. rewrite (inv_free nb s a x I), sized_suits. destruct (vfree a x) eqn:F; [|exact Logic.I]. destruct (suits q n); [|exact Logic.I]. cbn [andb].
    destruct (Nat.ltb b nb) eqn:B; [|exact Logic.I]. cbn [andb]. eexists. split; [reflexivity|]. apply window_inv; auto.
    + apply (inv_none nb s a x I). unfold vfree in F. destruct (v_env a x); [discriminate|reflexivity].
    + now apply Nat.ltb_lt.
  - cbn [sstep]. destruct (v_env a y) as [p|] eqn:Ey; [|exact Logic.I].
    destruct (inv_lookup_v nb s a y p I Ey) as (u & Eu & Kn & Kw & Kr & _). rewrite Eu, (inv_free nb s a x I), (inv_usable nb s a y u I Eu).
    destruct (vfree a x) eqn:F; [|exact Logic.I]. cbn [andb].
    assert (W : q && negb (t_own u) = false).
    { destruct q; auto. rewrite Kw. destruct p as [m w|c d m]; auto. exfalso. apply S; [reflexivity|]. exists c, d, m. exact Ey. }
    rewrite W, Kn. apply fresh_inv; auto.
    apply (inv_none nb s a x I). unfold vfree in F. destruct (v_env a x); [discriminate|reflexivity].
  - cbn [sstep]. destruct (v_env a y) as [p|] eqn:Ey; [|exact Logic.I].
    destruct (inv_lookup_v nb s a y p I Ey) as (u & Eu & Kn & Kw & Kr & Kp). rewrite Eu, (inv_free nb s a x I), (inv_usable nb s a y u I Eu).
    destruct (vfree a x) eqn:F; [|exact Logic.I]. cbn [andb].
    assert (Nx : m_env s x = None). { apply (inv_none nb s a x I). unfold vfree in F. destruct (v_env a x); [discriminate|reflexivity]. }
    rewrite Kw. destruct p as [m w|c d m]; cbn [vsize] in *.
    + rewrite Kn. apply fresh_inv; auto.
    + destruct Kp as (<- & <-). eexists. split; [reflexivity|].
      assert (Eq : u = mkT (t_blk u) (t_off u) m false) by (destruct u; cbn in *; congruence).
      rewrite Eq at 1. apply window_inv; auto. destruct I as (_ & _ & G & _). specialize (G y u Eu). unfold good in G. now rewrite Kw in G.
  - cbn [sstep]. exact (assign_agrees nb s a x y I).
  - cbn [sstep]. assert (P : forall u, m_env s y = Some u -> q || t_own u = true).
    { intros u Eu. destruct (inv_lookup nb s a y u I Eu) as (p & Ep & _ & Kw & _). destruct q; auto. rewrite Kw.
      destruct p as [m w|c d m]; auto. exfalso. apply S; [reflexivity|]. exists c, d, m. exact Ep. }
    pose proof (assign_agrees nb s a x y I) as A. destruct (m_env s x) as [t|]; [|exact A].
    destruct (m_env s y) as [u|] eqn:Eu; [|exact A]. now rewrite (P u eq_refl).
  - cbn [sstep]. destruct (v_env a x) as [o|] eqn:Ex; [|exact Logic.I].
    destruct (inv_lookup_v nb s a x o I Ex) as (t & Et & Hn & _ & Hr & _). rewrite Et, Hn. destruct (Nat.ltb i (vsize o)); [|exact Logic.I].
    apply (into_inv nb s a x t o _ _ I Et Ex). intros j Hj. destruct (Nat.eqb j i); auto.
  - cbn [sstep]. destruct (v_env a x) as [o|] eqn:Ex; [|exact Logic.I].
    destruct (inv_lookup_v nb s a x o I Ex) as (t & Et & Hn & _ & Hr & _). rewrite Et.
    apply (into_inv nb s a x t o _ _ I Et Ex). intros j Hj. now rewrite Hr.
  - cbn [sstep]. destruct (v_env a x) as [o|] eqn:Ex; [|exact Logic.I]. destruct (v_env a y) as [p|] eqn:Ey; [|exact Logic.I].
    destruct (inv_lookup_v nb s a x o I Ex) as (t & Et & Hn & Hw & Hr & Hp). destruct (inv_lookup_v nb s a y p I Ey) as (u & Eu & Kn & Kw & Kr & Kp).
    rewrite Et, Eu, Hn, Kn. destruct (Nat.eqb (vsize o) (vsize p)) eqn:E; [|exact Logic.I].
    rewrite (inv_usable nb s a y u I Eu), (inv_usable nb s a x t I Et). cbn [andb]. apply Nat.eqb_eq in E.
    destruct (into_inv nb s a x t o (fun i => rd s t i + rd s u i) (fun i => vget a o i + vget a p i) I Et Ex) as (s' & Es & I').
    { intros i Hi. now rewrite Hr, Kr by lia. }
    unfold into in Es. rewrite (inv_usable nb s a x t I Et) in Es. injection Es as <-.
    eexists. split; [reflexivity|]. refine (inv_cells nb _ _ _ I' _). cbn [m_cell]. rewrite <- Hn.
    apply add_loop_spec. rewrite Hn. intros B K. apply S.
    pose proof I as (_ & _ & G & D & _). pose proof (G x t Et) as Gt. pose proof (G y u Eu) as Gu. unfold good in *.
    destruct o as [n1 v1|b1 i1 n1], p as [n2 v2|b2 i2 n2]; rewrite Hw in Gt; rewrite Kw in Gu; cbn [vsize] in *.
    + lia.
    + lia.
    + lia.
    + destruct Hp as (<- & <-). destruct Kp as (<- & <-). exists (t_blk t), (t_off t), (t_off u), n1, n2.
      rewrite B in Ey. repeat split; auto; lia.
  - cbn [sstep]. destruct (v_env a x) as [o|] eqn:Ex; [|exact Logic.I].
    destruct (inv_lookup_v nb s a x o I Ex) as (t & Et & Hn & _ & Hr & _). rewrite Et.
    apply (into_inv nb s a x t o _ _ I Et Ex). intros j Hj. now rewrite Hr.
  - destruct (v_env a x) as [o|] eqn:Ex; [|exact Logic.I].
    destruct (inv_lookup_v nb s a x o I Ex) as (t & Et & _). exact (delete_inv nb s a x t o I Et Ex).
Qed.

Lemma run_agrees q nb l : forall s a, inv nb s a -> spares q nb a l -> agrees nb (sruns q nb s l) (vruns q nb a l).
Proof.
  induction l as [|o r IH]; intros s a I S; cbn [sruns vruns].
  - exists s. auto.
  - destruct S as (S1 & S2). pose proof (step_agrees q nb s a o I S1) as A.
    destruct (vstep q nb a o) as [a'| |]; cbn [agrees] in A.
    + destruct A as (s' & -> & I'). exact (IH s' a' I' S2).
    + rewrite A. reflexivity.
    + exact Logic.I.
Qed.
Lemma start_inv nb arr : inv nb (sstart nb arr) (vstart arr).
Proof.
  unfold inv, same_objects, no_leak, sstart, vstart. cbn. repeat split; intros; try discriminate; lia.
Qed.
Lemma sto_values q nb arr l : spares q nb (vstart arr) l ->
  match vruns q nb (vstart arr) l with
  | VOk a => exists s, sruns q nb (sstart nb arr) l = MOk s /\ same_objects nb s a /\ no_leak s
  | VThrow => sruns q nb (sstart nb arr) l = MThrow
  | VIll => True
  end.
Proof.
  intros S. pose proof (run_agrees q nb l _ _ (start_inv nb arr) S) as A.
  destruct (vruns q nb (vstart arr) l) as [a| |]; cbn [agrees] in A; auto.
  destruct A as (s & E & I). exists s. split; auto. split; [apply I|]. now destruct I as (_ & _ & _ & _ & _ & K).
Qed.
Lemma sto_all_deleted q nb arr l a : spares q nb (vstart arr) l -> vruns q nb (vstart arr) l = VOk a ->
  (forall x, v_env a x = None) ->
  exists s, sruns q nb (sstart nb arr) l = MOk s /\ forall b, m_live s b = false.
Proof.
  intros S E N. pose proof (sto_values q nb arr l S) as A. rewrite E in A. destruct A as (s & R & (_ & O) & K).
  exists s. split; auto. intros b. destruct (m_live s b) eqn:L; auto. destruct (K b L) as (x & t & Et & _).
  specialize (O x). rewrite Et, N in O. contradiction.
Qed.
