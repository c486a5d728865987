(** Proofs for C104. *)
From Coq Require Import Arith Bool List Lia.
From Verif Require Import Base.
From Verif Require Import StoModel StoProofs.
From Verif Require Import HstModel.
From Verif Require Import HstSpec.
Import ListNotations.

Definition hgood (nb : nat) (s : hstate) (t : hobj) : Prop :=
  if h_own t then (nb <= h_blk t < s_next s)%nat /\ s_live s (h_blk t) = true /\ h_off t = 0%nat /\
                  (h_n t <= h_cap t)%nat /\ s_len s (h_blk t) = h_cap t
  else (h_blk t < nb)%nat.
Definition hinv (nb : nat) (len : nat -> nat) (s : hstate) (a : wstate) : Prop :=
  same_histories nb s a /\ (nb <= s_next s)%nat /\
  (forall x t, s_env s x = Some t -> hgood nb s t) /\
  (forall x y t u, s_env s x = Some t -> s_env s y = Some u -> h_own t = true -> h_own u = true ->
                   h_blk t = h_blk u -> x = y) /\
  (forall b, s_live s b = true -> (nb <= b < s_next s)%nat) /\ nothing_lost s /\
  (forall b, (b < nb)%nat -> s_len s b = len b).

Definition match_obj (s : hstate) (a : wstate) (t : hobj) (o : wobj) : Prop :=
  h_n t = wsize o /\ h_own t = (match o with WOwn _ _ => true | _ => false end) /\
  (forall i, (i < wsize o)%nat -> shows (wget a o i) (hrd s t i)) /\
  match o with WWin b off _ => h_blk t = b /\ h_off t = off | _ => True end.
Lemma hlookup nb len s a x o : hinv nb len s a -> w_env a x = Some o ->
  exists t, s_env s x = Some t /\ match_obj s a t o.
Proof.
  intros ((_ & H) & _) E. specialize (H x). rewrite E in H. destruct (s_env s x) as [t|]; [|contradiction]. exists t. auto.
Qed.
Lemma hnone nb len s a x : hinv nb len s a -> (s_env s x = None <-> w_env a x = None).
Proof.
  intros ((_ & H) & _). specialize (H x). destruct (s_env s x), (w_env a x); try contradiction; split; congruence.
Qed.
Lemma hfree nb len s a x : hinv nb len s a -> free_name (s_env s) x = wfree a x.
Proof.
  intros I. pose proof (hnone nb len s a x I) as H. unfold free_name, wfree.
  destruct (s_env s x), (w_env a x); auto; [destruct H as [_ H]|destruct H as [H _]]; specialize (H eq_refl); discriminate.
Qed.
Lemma free_none nb len s a x : hinv nb len s a -> wfree a x = true -> s_env s x = None.
Proof. intros I F. apply (hnone nb len s a x I). unfold wfree in F. destruct (w_env a x); [discriminate|reflexivity]. Qed.
Lemma hfits nb len s a x t o : hinv nb len s a -> s_env s x = Some t -> match_obj s a t o -> wfits len o = true -> hready nb s t = true.
Proof.
  intros (_ & _ & G & _ & _ & _ & L) E (Hn & Hw & _ & Hp) F. specialize (G x t E). unfold hgood in G. unfold hready.
  destruct o as [n v|b off n]; rewrite Hw in G; cbn [wsize wfits] in *.
  - destruct G as (_ & G1 & G2 & G3 & G4). rewrite G1, G2, G4, orb_true_r. apply Nat.leb_le. lia.
  - destruct Hp as (<- & <-). rewrite L, Hn by exact G. apply Nat.ltb_lt in G. rewrite G. exact F.
Qed.
Lemma hown_ready nb len s a x t : hinv nb len s a -> s_env s x = Some t -> h_own t = true -> hready nb s t = true.
Proof.
  intros (_ & _ & G & _) E O. specialize (G x t E). unfold hgood in G. rewrite O in G.
  destruct G as (_ & G1 & G2 & G3 & G4). unfold hready. rewrite G1, G2, G4, orb_true_r. apply Nat.leb_le. lia.
Qed.

(** writing *)
Lemma hwrite nb len s a x t o f g : hinv nb len s a -> s_env s x = Some t -> w_env a x = Some o -> match_obj s a t o ->
  (forall i, (i < wsize o)%nat -> shows (g i) (f i)) ->
  hinv nb len (mkHS (wr (s_cell s) (h_blk t) (h_off t) (h_n t) f) (s_live s) (s_next s) (s_len s) (s_env s)) (wset a x o g).
Proof.
  intros ((HA & HE) & HN & HG & HD & HR) Et Eo (Hn & Hw & Hr & Hp) F.
  pose proof (HG x t Et) as Gt. unfold hgood in Gt.
  split; [|split; [exact HN|split; [exact HG|split; [exact HD|exact HR]]]].
  destruct o as [n v|b off n]; cbn [wsize] in *; rewrite Hw in Gt.
  - destruct Gt as (Gb & Gl & Go & _). split.
    + intros b j Hb. cbn [s_cell wset w_arr]. rewrite wr_out by lia. auto.
    + intros y. cbn [s_env wset w_env]. specialize (HE y). destruct (Nat.eqb y x) eqn:Y.
      * apply Nat.eqb_eq in Y. subst y. rewrite Et. cbn [wsize]. refine (conj Hn (conj Hw (conj _ Logic.I))).
        intros i Hi. unfold hrd. cbn [s_cell wget]. rewrite wr_in by lia. auto.
      * destruct (s_env s y) as [u|] eqn:Eu; [|exact HE]. destruct (w_env a y) as [p|]; [|contradiction].
        destruct HE as (En & Ew & Er & Ep). refine (conj En (conj Ew (conj _ Ep))).
        intros i Hi. specialize (Er i Hi). unfold hrd in *. cbn [s_cell].
        assert (h_blk u <> h_blk t).
        { intros K. destruct p as [m w|c d m].
          - apply Nat.eqb_neq in Y. apply Y. apply (HD y x u t); auto.
          - pose proof (HG y u Eu) as Gu. unfold hgood in Gu. rewrite Ew in Gu. lia. }
        rewrite wr_out by auto. destruct p; exact Er.
  - destruct Hp as (<- & <-).
    assert (X : forall b' j, (b' < nb)%nat -> shows
      (if Nat.eqb b' (h_blk t) && (Nat.leb (h_off t) j && Nat.ltb j (h_off t + n)) then g (j - h_off t)%nat else w_arr a b' j)
      (wr (s_cell s) (h_blk t) (h_off t) (h_n t) f b' j)).
    { intros b' j Hb. unfold wr. rewrite Hn.
      destruct (Nat.eqb b' (h_blk t) && (Nat.leb (h_off t) j && Nat.ltb j (h_off t + n))) eqn:E; [|auto].
      rewrite !andb_true_iff, Nat.leb_le, Nat.ltb_lt in E. apply F. lia. }
    split; [exact X|].
    intros y. cbn [s_env wset w_env]. specialize (HE y).
    destruct (s_env s y) as [u|] eqn:Eu; [|exact HE]. destruct (w_env a y) as [p|]; [|contradiction].
    destruct HE as (En & Ew & Er & Ep). refine (conj En (conj Ew (conj _ Ep))).
    intros i Hi. specialize (Er i Hi). pose proof (HG y u Eu) as Gu. unfold hgood in Gu. rewrite Ew in Gu.
    unfold hrd in *. cbn [s_cell]. destruct p as [m w|c d m].
    + rewrite wr_out by lia. exact Er.
    + destruct Ep as (<- & <-). cbn [wget w_arr]. apply X. exact Gu.
Qed.
Lemma hinto_inv nb len s a x t o f g : hinv nb len s a -> s_env s x = Some t -> w_env a x = Some o -> match_obj s a t o ->
  wfits len o = true -> (forall i, (i < wsize o)%nat -> shows (g i) (f i)) ->
  exists s', hinto nb s t f = HOk s' /\ hinv nb len s' (wset a x o g).
Proof.
  intros I Et Eo M W F. unfold hinto. rewrite (hfits nb len s a x t o I Et M W). eexists. split; [reflexivity|].
  now apply hwrite.
Qed.

(** objects other than x are the same after x is bound to something else *)
Lemma others (s : hstate) (a : wstate) (x : nat) cell live next ln (t : option hobj) (o : option wobj) :
  (forall y, match s_env s y, w_env a y with None, None => True | Some t, Some o => match_obj s a t o | _, _ => False end) ->
  (forall y u, s_env s y = Some u -> y <> x -> forall i, cell (h_blk u) (h_off u + i)%nat = hrd s u i) ->
  match t, o with None, None => True | Some t', Some o' => match_obj (mkHS cell live next ln (bind (s_env s) x t)) (wmake a x o) t' o' | _, _ => False end ->
  forall y, match bind (s_env s) x t y, w_env (wmake a x o) y with None, None => True
   | Some t', Some o' => match_obj (mkHS cell live next ln (bind (s_env s) x t)) (wmake a x o) t' o' | _, _ => False end.
Proof.
  intros HE HC HX y. unfold bind at 1. cbn [wmake w_env]. destruct (Nat.eqb y x) eqn:Y.
  - destruct t as [t|], o as [o|]; auto.
  - apply Nat.eqb_neq in Y. specialize (HE y). destruct (s_env s y) as [u|] eqn:Eu; [|exact HE].
    destruct (w_env a y) as [p|]; [|contradiction]. destruct HE as (En & Ew & Er & Ep). refine (conj En (conj Ew (conj _ Ep))).
    intros i Hi. specialize (Er i Hi). unfold hrd at 1. cbn [s_cell]. rewrite (HC y u Eu Y). destruct p; exact Er.
Qed.

Lemma halloc junk nb len s a x m n cap f g : hinv nb len s a -> (forall t, s_env s x = Some t -> h_own t = false) ->
  (n <= cap)%nat -> (forall i, (i < n)%nat -> match g i with Some v => (i < m)%nat /\ f i = v | None => True end) ->
  exists s', alloc junk s x m n cap f = HOk s' /\ hinv nb len s' (wmake a x (Some (WOwn n g))).
Proof.
  intros ((HA & HE) & HN & HG & HD & HL & HK & HT) Ex Hc F. unfold alloc. eexists. split; [reflexivity|].
  assert (Old : forall y u, s_env s y = Some u -> h_blk u <> s_next s).
  { intros y u Eu. specialize (HG y u Eu). unfold hgood in HG. destruct (h_own u); lia. }
  assert (NE : forall b, b <> s_next s -> Nat.eqb b (s_next s) = false) by (intros; now apply Nat.eqb_neq).
  split; [split|split; [|split; [|split; [|split; [|split]]]]]; cbn [s_cell s_live s_next s_len s_env].
  - intros b j Hb. rewrite NE by lia. cbn [wmake w_arr]. auto.
  - apply others; [exact HE| |].
    + intros y u Eu _ i. rewrite NE by eauto. reflexivity.
    + repeat split. intros i Hi. cbn [wsize] in Hi. unfold hrd. cbn [s_cell h_blk h_off wget]. rewrite Nat.eqb_refl. specialize (F i Hi).
      unfold shows. destruct (g i) as [v|]; auto. destruct F as (F1 & F2). cbn [Nat.add]. apply Nat.ltb_lt in F1. now rewrite F1.
  - lia.
  - intros y u. unfold bind. destruct (Nat.eqb y x).
    + intros E. injection E as <-. unfold hgood. cbn. rewrite Nat.eqb_refl. repeat split; lia.
    + intros E. pose proof (HG y u E) as G. unfold hgood in *. cbn [s_next s_live s_len]. destruct (h_own u); [|exact G].
      rewrite (NE (h_blk u)) by eauto. intuition lia.
  - intros y z t u. unfold bind. destruct (Nat.eqb y x) eqn:Y, (Nat.eqb z x) eqn:Z.
    + apply Nat.eqb_eq in Y, Z. congruence.
    + intros E1 E2 _ _ K. injection E1 as <-. cbn in K. exfalso. exact (Old z u E2 (eq_sym K)).
    + intros E1 E2 _ _ K. injection E2 as <-. cbn in K. exfalso. exact (Old y t E1 K).
    + apply HD.
  - intros b H. destruct (Nat.eqb b (s_next s)) eqn:B; [apply Nat.eqb_eq in B; lia|]. specialize (HL b H). lia.
  - intros b H. cbn [s_live s_env] in *. destruct (Nat.eqb b (s_next s)) eqn:B.
    + apply Nat.eqb_eq in B. exists x. unfold bind. rewrite Nat.eqb_refl. eexists. split; [reflexivity|]. cbn. auto.
    + destruct (HK b H) as (y & t & E & O & K). exists y, t. unfold bind. destruct (Nat.eqb y x) eqn:Y; auto.
      apply Nat.eqb_eq in Y. subst y. rewrite (Ex t E) in O. discriminate.
  - intros b Hb. rewrite NE by lia. auto.
Qed.

Lemma hwindow nb len s a x b off n cap : hinv nb len s a -> (forall t, s_env s x = Some t -> h_own t = false) -> (b < nb)%nat ->
  exists s', rebind s x (mkH b off n cap false) = HOk s' /\ hinv nb len s' (wmake a x (Some (WWin b off n))).
Proof.
  intros ((HA & HE) & HN & HG & HD & HL & HK & HT) Ex Hb. unfold rebind. eexists. split; [reflexivity|].
  split; [split|split; [exact HN|split; [|split; [|split; [exact HL|split; [|exact HT]]]]]]; cbn [s_cell s_live s_next s_len s_env].
  - exact HA.
  - apply others; [exact HE|reflexivity|]. repeat split. intros i Hi. unfold hrd. cbn. auto.
  - intros y u. unfold bind. destruct (Nat.eqb y x); [|intros E; exact (HG y u E)]. intros E. injection E as <-. exact Hb.
  - intros y z t u. unfold bind. destruct (Nat.eqb y x) eqn:Y, (Nat.eqb z x) eqn:Z; try apply HD;
      intros E1 E2 O1 O2; [injection E1 as <-; discriminate|injection E1 as <-; discriminate|injection E2 as <-; discriminate].
  - intros c H. destruct (HK c H) as (y & t & E & O & K). exists y, t. cbn [s_env]. unfold bind. destruct (Nat.eqb y x) eqn:Y; auto.
    apply Nat.eqb_eq in Y. subst y. rewrite (Ex t E) in O. discriminate.
Qed.

Lemma hresize nb len s a x t n g : hinv nb len s a -> s_env s x = Some t -> h_own t = true -> (n <= h_cap t)%nat ->
  (forall i, (i < n)%nat -> shows (g i) (hrd s t i)) ->
  exists s', rebind s x (mkH (h_blk t) (h_off t) n (h_cap t) true) = HOk s' /\ hinv nb len s' (wmake a x (Some (WOwn n g))).
Proof.
  intros ((HA & HE) & HN & HG & HD & HL & HK & HT) Et O Hn F. unfold rebind. eexists. split; [reflexivity|].
  pose proof (HG x t Et) as Gt. unfold hgood in Gt. rewrite O in Gt.
  split; [split|split; [exact HN|split; [|split; [|split; [exact HL|split; [|exact HT]]]]]]; cbn [s_cell s_live s_next s_len s_env].
  - exact HA.
  - apply others; [exact HE|reflexivity|]. repeat split. intros i Hi. cbn [wsize] in Hi. exact (F i Hi).
  - intros y u. unfold bind. destruct (Nat.eqb y x); [|intros E; exact (HG y u E)]. intros E. injection E as <-. unfold hgood. cbn. tauto.
  - intros y z u w. unfold bind. destruct (Nat.eqb y x) eqn:Y, (Nat.eqb z x) eqn:Z; try apply HD; intros E1 E2 O1 O2 K.
    + apply Nat.eqb_eq in Y, Z. congruence.
    + injection E1 as <-. apply Nat.eqb_eq in Y. subst y. exact (HD x z t w Et E2 O O2 K).
    + injection E2 as <-. apply Nat.eqb_eq in Z. subst z. exact (HD y x u t E1 Et O1 O K).
  - intros c H. destruct (HK c H) as (y & u & E & Ou & K). cbn [s_env]. destruct (Nat.eqb y x) eqn:Y.
    + apply Nat.eqb_eq in Y. subst y. assert (u = t) by congruence. subst u. exists x. unfold bind. rewrite Nat.eqb_refl.
      eexists. split; [reflexivity|]. auto.
    + exists y, u. unfold bind. rewrite Y. auto.
Qed.

Lemma hdelete nb len s a x t : hinv nb len s a -> s_env s x = Some t ->
  exists s', hdel nb s x = HOk s' /\ hinv nb len s' (wmake a x None) /\ s_env s' x = None.
Proof.
  intros ((HA & HE) & HN & HG & HD & HL & HK & HT) Et. unfold hdel. rewrite Et.
  pose proof (HG x t Et) as Gt. unfold hgood in Gt.
  assert (Ub : forall y u, bind (s_env s) x None y = Some u -> s_env s y = Some u /\ y <> x).
  { intros y u. unfold bind. destruct (Nat.eqb y x) eqn:Y; [discriminate|]. apply Nat.eqb_neq in Y. auto. }
  assert (Bx : bind (s_env s) x None x = None) by (unfold bind; now rewrite Nat.eqb_refl).
  destruct (h_own t) eqn:O.
  - destruct Gt as (G1 & G2 & G3 & _). assert (L : Nat.leb nb (h_blk t) = true) by (apply Nat.leb_le; lia).
    rewrite L, G2, G3. cbn [andb Nat.eqb]. eexists. split; [reflexivity|]. split; [|exact Bx].
    split; [split|split; [exact HN|split; [|split; [|split; [|split; [|exact HT]]]]]]; cbn [s_cell s_live s_next s_len s_env].
    + exact HA.
    + apply others; [exact HE|reflexivity|exact Logic.I].
    + intros y u E. apply Ub in E as (E & N). pose proof (HG y u E) as G. unfold hgood in *. cbn [s_next s_live s_len].
      destruct (h_own u) eqn:Ou; [|exact G]. destruct G as (K1 & K2 & K3). split; auto. split; auto.
      destruct (Nat.eqb (h_blk u) (h_blk t)) eqn:B; auto. apply Nat.eqb_eq in B. exfalso. apply N. exact (HD y x u t E Et Ou O B).
    + intros y z u w E1 E2. apply Ub in E1 as (E1 & _). apply Ub in E2 as (E2 & _). now apply HD.
    + intros b H. destruct (Nat.eqb b (h_blk t)); [discriminate|]. auto.
    + intros b H. cbn [s_live s_env] in *. destruct (Nat.eqb b (h_blk t)) eqn:B; [discriminate|]. destruct (HK b H) as (y & u & E & Ou & K).
      exists y, u. unfold bind. destruct (Nat.eqb y x) eqn:Y; auto. apply Nat.eqb_eq in Y. apply Nat.eqb_neq in B. exfalso. apply B. congruence.
  - eexists. split; [reflexivity|]. split; [|exact Bx].
    split; [split|split; [exact HN|split; [|split; [|split; [exact HL|split; [|exact HT]]]]]]; cbn [s_cell s_live s_next s_len s_env].
    + exact HA.
    + apply others; [exact HE|reflexivity|exact Logic.I].
    + intros y u E. apply Ub in E as (E & N). exact (HG y u E).
    + intros y z u w E1 E2. apply Ub in E1 as (E1 & _). apply Ub in E2 as (E2 & _). now apply HD.
    + intros b H. destruct (HK b H) as (y & u & E & Ou & K). exists y, u. cbn [s_env]. unfold bind. destruct (Nat.eqb y x) eqn:Y; auto.
      apply Nat.eqb_eq in Y. congruence.
Qed.

(** the specification does not see how often an entry was overwritten *)
Lemma hinv_same nb len s a b : hinv nb len s a -> w_arr a = w_arr b -> (forall y, w_env a y = w_env b y) -> hinv nb len s b.
Proof.
  intros ((HA & HE) & HR) E1 E2. split; [|exact HR]. split; [now rewrite <- E1|].
  intros y. rewrite <- E2. specialize (HE y). destruct (s_env s y) as [t|]; [|exact HE]. destruct (w_env a y) as [o|]; [|contradiction].
  destruct HE as (En & Ew & Er & Ep). refine (conj En (conj Ew (conj _ Ep))). intros i Hi. specialize (Er i Hi).
  destruct o; cbn [wget] in *; [exact Er|now rewrite <- E1].
Qed.
Lemma make_twice nb len s a x p o : hinv nb len s (wmake (wmake a x p) x o) -> hinv nb len s (wmake a x o).
Proof. intros I. apply (hinv_same nb len s (wmake (wmake a x p) x o)); [exact I|reflexivity|]. intros y. cbn. now destruct (Nat.eqb y x). Qed.

Lemma hregrow junk nb len s a x t n c g : hinv nb len s a -> s_env s x = Some t -> h_own t = true -> (h_n t <= c)%nat -> (n <= c)%nat ->
  (forall i, (i < n)%nat -> match g i with Some v => (i < h_n t)%nat /\ hrd s t i = v | None => True end) ->
  exists s', regrow junk nb s x t n c = HOk s' /\ hinv nb len s' (wmake a x (Some (WOwn n g))).
Proof.
  intros I Et O Hc Hn F. unfold regrow. rewrite (hown_ready nb len s a x t I Et O), O. apply Nat.leb_le in Hc. rewrite Hc. cbn [andb].
  destruct (hdelete nb len s a x t I Et) as (s1 & -> & I1 & N1).
  destruct (halloc junk nb len s1 _ x (h_n t) n c (hrd s t) g I1) as (s2 & E2 & I2); auto; [congruence|].
  exists s2. split; [exact E2|]. exact (make_twice nb len s2 a x None _ I2).
Qed.

Definition hagrees (nb : nat) (len : nat -> nat) (r : hres) (v : wres) : Prop :=
  match v with
  | WOk a => exists s, r = HOk s /\ hinv nb len s a
  | WThrow => r = HThrow
  | WIll => True
  end.

Lemma hcells nb len s a c : hinv nb len s a -> (forall b j, c b j = s_cell s b j) ->
  hinv nb len (mkHS c (s_live s) (s_next s) (s_len s) (s_env s)) a.
Proof.
  intros ((HA & HE) & HR) H. split; [|exact HR]. split.
  - intros b j Hb. cbn [s_cell]. rewrite H. auto.
  - intros y. cbn [s_env]. specialize (HE y). destruct (s_env s y) as [u|]; [|exact HE]. destruct (w_env a y) as [p|]; [|contradiction].
    destruct HE as (En & Ew & Er & Ep). refine (conj En (conj Ew (conj _ Ep))).
    intros i Hi. specialize (Er i Hi). unfold hrd in *. cbn [s_cell]. now rewrite H.
Qed.

Lemma hstep_agrees junk nb len s a op : hinv nb len s a -> wspared a op -> hagrees nb len (hstep junk nb s op) (wstep nb len a op).
Proof.
  intros I S. pose proof I as (_ & _ & G & _ & _ & _ & HT).
  destruct op as [x|x b off|x k|x c|x b off|x b off|x|x y|x y|x y|x k|x y|x|x i v|x]; cbn [wstep hstep wspared] in *.
  - rewrite (hfree nb len s a x I). destruct (wfree a x) eqn:F; [|exact Logic.I].
    pose proof (free_none nb len s a x I F) as N. apply halloc; auto; try congruence; try lia.
  - rewrite (hfree nb len s a x I). destruct (wfree a x) eqn:F; [|exact Logic.I]. destruct (Nat.ltb b nb) eqn:B; [|exact Logic.I].
    pose proof (free_none nb len s a x I F) as N. apply hwindow; auto; try congruence. now apply Nat.ltb_lt.
  - destruct (w_env a x) as [o|] eqn:Ex; [|exact Logic.I]. destruct (hlookup nb len s a x o I Ex) as (t & Et & Hn & Hw & Hr & Hp).
    rewrite Et. pose proof (G x t Et) as Gt. unfold hgood in Gt. destruct o as [n v|b off n]; rewrite Hw in *; cbn [wsize] in *.
    + destruct (Nat.ltb (h_cap t) (h_n t + k)) eqn:C; rewrite Hn in *.
      * apply hregrow; auto; try lia. intros i _. destruct (Nat.ltb i n) eqn:L; [|exact Logic.I]. apply Nat.ltb_lt in L. specialize (Hr i L).
        cbn [wget] in Hr. unfold shows in Hr. destruct (v i); auto. split; auto. lia.
      * apply Nat.ltb_ge in C. apply hresize; auto. intros i _. destruct (Nat.ltb i n) eqn:L; [|exact Logic.I]. apply Nat.ltb_lt in L. exact (Hr i L).
    + destruct Hp as (<- & <-). rewrite Hn. apply hwindow; auto; congruence.
  - destruct (w_env a x) as [[n v|b off n]|] eqn:Ex; try exact Logic.I. destruct (hlookup nb len s a x _ I Ex) as (t & Et & Hn & Hw & Hr & Hp).
    destruct (Nat.leb n c) eqn:L; [|exact Logic.I]. apply Nat.leb_le in L. rewrite Et. cbn [wsize] in *.
    destruct (hregrow junk nb len s a x t (h_n t) c v I Et Hw) as (s' & E' & I'); try lia.
    { intros i Hi. specialize (Hr i ltac:(lia)). cbn [wget] in Hr. unfold shows in Hr. destruct (v i); auto. }
    exists s'. split; [exact E'|]. refine (hinv_same nb len s' _ a I' (eq_refl _) _). intros y. cbn. destruct (Nat.eqb y x) eqn:Y; auto.
    apply Nat.eqb_eq in Y. subst y. rewrite Ex. now rewrite Hn.
  - destruct (w_env a x) as [o|] eqn:Ex; [|exact Logic.I]. destruct (hlookup nb len s a x o I Ex) as (t & Et & Hn & Hw & Hr & Hp).
    rewrite Et. destruct (Nat.ltb b nb) eqn:B; [|exact Logic.I]. apply Nat.ltb_lt in B. rewrite Hn. destruct (h_own t) eqn:O.
    + destruct (hdelete nb len s a x t I Et) as (s1 & -> & I1 & N1).
      destruct (hwindow nb len s1 _ x b off (wsize o) 0 I1) as (s2 & E2 & I2); auto; [congruence|].
      exists s2. split; [exact E2|]. exact (make_twice nb len s2 a x None _ I2).
    + apply hwindow; auto; congruence.
  - destruct (w_env a x) as [o|] eqn:Ex; [|exact Logic.I]. destruct (hlookup nb len s a x o I Ex) as (t & Et & M). pose proof M as (Hn & Hw & Hr & Hp).
    rewrite Et, Hn. destruct (Nat.ltb b nb) eqn:B; [|exact Logic.I]. apply Nat.ltb_lt in B. cbn [andb]. rewrite (HT b B).
    destruct (Nat.leb (off + wsize o) (len b)); [|exact Logic.I]. destruct (wfits len o) eqn:W; [|exact Logic.I].
    apply (hinto_inv nb len s a x t o); auto. intros i _. destruct I as ((HA & _) & _). now apply HA.
  - destruct (w_env a x) as [o|] eqn:Ex; [|exact Logic.I]. destruct (hlookup nb len s a x o I Ex) as (t & Et & Hn & Hw & Hr & Hp).
    rewrite Et, Hw. destruct o as [n v|b off n]; cbn [wsize] in *; [exists s; auto|]. rewrite Hn. apply halloc; auto; congruence.
  - destruct (w_env a y) as [o|] eqn:Ey; [|exact Logic.I]. destruct (hlookup nb len s a y o I Ey) as (t & Et & Hn & Hw & Hr & Hp).
    rewrite Et, (hfree nb len s a x I), Hw. destruct (wfree a x) eqn:F; [|exact Logic.I]. pose proof (free_none nb len s a x I F) as N.
    destruct o as [n v|b off n]; cbn [wsize] in *.
    + rewrite (hown_ready nb len s a y t I Et Hw), Hn. apply halloc; auto; try congruence. intros i Hi. specialize (Hr i Hi). cbn [wget] in Hr.
      unfold shows in Hr. destruct (v i); auto.
    + destruct Hp as (<- & <-). rewrite Hn. apply hwindow; auto; try congruence. pose proof (G y t Et) as Gt. unfold hgood in Gt. now rewrite Hw in Gt.
  - destruct (w_env a y) as [o|] eqn:Ey; [|exact Logic.I]. destruct (hlookup nb len s a y o I Ey) as (t & Et & M). pose proof M as (Hn & Hw & Hr & Hp).
    rewrite Et, (hfree nb len s a x I). destruct (wfree a x) eqn:F; [|exact Logic.I]. pose proof (free_none nb len s a x I F) as N.
    destruct (wfits len o) eqn:W; [|exact Logic.I]. rewrite (hfits nb len s a y t o I Et M W), Hn. cbn [andb].
    apply halloc; auto; try congruence. intros i Hi. specialize (Hr i Hi). unfold shows in Hr. destruct (wget a o i); auto.
  - destruct (w_env a x) as [o|] eqn:Ex; [|exact Logic.I]. destruct (w_env a y) as [p|] eqn:Ey; [|exact Logic.I].
    destruct (hlookup nb len s a x o I Ex) as (t & Et & M). pose proof M as (Hn & Hw & Hr & Hp).
    destruct (hlookup nb len s a y p I Ey) as (u & Eu & K). pose proof K as (Kn & Kw & Kr & Kp).
    rewrite Et, Eu, Hn, Kn. destruct (Nat.eqb (wsize o) (wsize p)) eqn:E; [|reflexivity]. apply Nat.eqb_eq in E.
    destruct (wfits len p) eqn:W; [|exact Logic.I]. rewrite (hfits nb len s a y u p I Eu K W). destruct (wfits len o) eqn:V; [|exact Logic.I].
    apply (hinto_inv nb len s a x t o); auto. intros i Hi. apply Kr. lia.
  - destruct (w_env a x) as [o|] eqn:Ex; [|exact Logic.I]. destruct (hlookup nb len s a x o I Ex) as (t & Et & M). pose proof M as (Hn & Hw & Hr & Hp).
    rewrite Et. destruct (wfits len o) eqn:V; [|exact Logic.I]. apply (hinto_inv nb len s a x t o); auto.
    intros i Hi. specialize (Hr i Hi). unfold shows in *. destruct (wget a o i); cbn; auto. now rewrite Hr.
  - destruct (w_env a x) as [o|] eqn:Ex; [|exact Logic.I]. destruct (w_env a y) as [p|] eqn:Ey; [|exact Logic.I].
    destruct (hlookup nb len s a x o I Ex) as (t & Et & M). pose proof M as (Hn & Hw & Hr & Hp).
    destruct (hlookup nb len s a y p I Ey) as (u & Eu & K). pose proof K as (Kn & Kw & Kr & Kp).
    rewrite Et, Eu. destruct (Nat.eqb (wsize o) (wsize p)) eqn:E; rewrite <- Hn, <- Kn in E; rewrite E; [|reflexivity]. apply Nat.eqb_eq in E.
    destruct (wfits len p) eqn:W; [|exact Logic.I]. rewrite (hfits nb len s a y u p I Eu K W). destruct (wfits len o) eqn:V; [|exact Logic.I].
    rewrite (hfits nb len s a x t o I Et M V). cbn [andb]. eexists. split; [reflexivity|].
    pose proof (hwrite nb len s a x t o (fun i => hrd s t i + hrd s u i) (fun i => oadd (wget a o i) (wget a p i)) I Et Ex M) as I'.
    refine (hcells nb len _ _ _ (I' _) _).
    { intros i Hi. specialize (Hr i Hi). specialize (Kr i ltac:(lia)). unfold shows in *. destruct (wget a o i), (wget a p i); cbn; auto. now rewrite Hr, Kr. }
    cbn [s_cell]. apply add_loop_spec. cbn [t_blk t_off t_n]. intros B L. apply S.
    pose proof (G x t Et) as Gt. pose proof (G y u Eu) as Gu. unfold hgood in *.
    destruct o as [n1 v1|b1 i1 n1], p as [n2 v2|b2 i2 n2]; rewrite Hw in Gt; rewrite Kw in Gu; cbn [wsize] in *.
    + lia.
    + lia.
    + lia.
    + destruct Hp as (<- & <-). destruct Kp as (<- & <-). exists (h_blk t), (h_off t), (h_off u), n1, n2.
      rewrite B. split; [reflexivity|]. split; [reflexivity|]. lia.
  - destruct (w_env a x) as [o|] eqn:Ex; [|exact Logic.I]. destruct (hlookup nb len s a x o I Ex) as (t & Et & M).
    rewrite Et. destruct (wfits len o) eqn:V; [|exact Logic.I]. apply (hinto_inv nb len s a x t o); auto. reflexivity.
  - destruct (w_env a x) as [o|] eqn:Ex; [|exact Logic.I]. destruct (hlookup nb len s a x o I Ex) as (t & Et & M). pose proof M as (Hn & Hw & Hr & Hp).
    rewrite Et, Hn. destruct (Nat.ltb i (wsize o)); [|exact Logic.I]. destruct (wfits len o) eqn:V; [|exact Logic.I].
    apply (hinto_inv nb len s a x t o); auto. intros j Hj. destruct (Nat.eqb j i); [reflexivity|]. now apply Hr.
  - destruct (w_env a x) as [o|] eqn:Ex; [|exact Logic.I]. destruct (hlookup nb len s a x o I Ex) as (t & Et & M).
    destruct (hdelete nb len s a x t I Et) as (s1 & E1 & I1 & _). exists s1. auto.
Qed.

Lemma hrun_agrees junk nb len l : forall s a, hinv nb len s a -> wspares nb len a l -> hagrees nb len (hruns junk nb s l) (wruns nb len a l).
Proof.
  induction l as [|o r IH]; intros s a I S; cbn [hruns wruns].
  - exists s. auto.
  - destruct S as (S1 & S2). pose proof (hstep_agrees junk nb len s a o I S1) as A.
    destruct (wstep nb len a o) as [a'| |]; cbn [hagrees] in A.
    + destruct A as (s' & -> & I'). exact (IH s' a' I' S2).
    + rewrite A. reflexivity.
    + exact Logic.I.
Qed.
Lemma hstart_inv nb len arr : hinv nb len (hstart nb len arr) (wstart arr).
Proof.
  unfold hinv, same_histories, nothing_lost, hstart, wstart, shows. cbn. repeat split; intros; try discriminate; try lia; auto.
Qed.
Lemma hst_values junk nb len arr l : wspares nb len (wstart arr) l ->
  match wruns nb len (wstart arr) l with
  | WOk a => exists s, hruns junk nb (hstart nb len arr) l = HOk s /\ same_histories nb s a /\ nothing_lost s
  | WThrow => hruns junk nb (hstart nb len arr) l = HThrow
  | WIll => True
  end.
Proof.
  intros S. pose proof (hrun_agrees junk nb len l _ _ (hstart_inv nb len arr) S) as A.
  destruct (wruns nb len (wstart arr) l) as [a| |]; cbn [hagrees] in A; auto.
  destruct A as (s & E & I). exists s. split; auto. split; [apply I|]. now destruct I as (_ & _ & _ & _ & _ & K & _).
Qed.
Lemma hst_all_deleted junk nb len arr l a : wspares nb len (wstart arr) l -> wruns nb len (wstart arr) l = WOk a ->
  (forall x, w_env a x = None) ->
  exists s, hruns junk nb (hstart nb len arr) l = HOk s /\ forall b, s_live s b = false.
Proof.
  intros S E N. pose proof (hst_values junk nb len arr l S) as A. rewrite E in A. destruct A as (s & R & (_ & O) & K).
  exists s. split; auto. intros b. destruct (s_live s b) eqn:L; auto. destruct (K b L) as (x & t & Et & _).
  specialize (O x). rewrite Et, N in O. contradiction.
Qed.
