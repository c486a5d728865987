(** The reader against the meaning of the characters. *)
From Coq Require Import String Ascii ZArith List Lia Lra.
From Verif Require Import Base.
From Verif Require Import HistModel TextModel TextProofs ParseModel ParseSpec ParseProofs TxtSpec.
Import ListNotations.

Lemma blank_iff c : isspace c = true <-> In c blanks.
Proof.
  split.
  - intros H. destruct c as [[] [] [] [] [] [] [] []]; try discriminate H; cbn; tauto.
  - intros H. cbn in H. repeat (destruct H as [<- | H]; [reflexivity|]). contradiction.
Qed.
Lemma digit_some c d : is_digit c d -> isdigit c = true /\ Z.of_nat (code c - 48) = d.
Proof. unfold is_digit. cbn [In]. intros H. repeat (destruct H as [H | H]; [injection H as <- <-; split; reflexivity|]). contradiction. Qed.
Lemma digit_iff c : isdigit c = true -> is_digit c (Z.of_nat (code c - 48)).
Proof. intros H. destruct c as [[] [] [] [] [] [] [] []]; try discriminate H; unfold is_digit; cbn; tauto. Qed.
Lemma digit_not_blank c d : is_digit c d -> isspace c = false.
Proof. unfold is_digit. cbn [In]. intros H. repeat (destruct H as [H | H]; [injection H as <- _; reflexivity|]). contradiction. Qed.
Lemma digit_not_sign c d : is_digit c d -> ceq c c_minus = false /\ ceq c c_plus = false /\ ceq c c_dot = false /\ ceq c c_e = false /\ ceq c c_E = false.
Proof. unfold is_digit. cbn [In]. intros H. repeat (destruct H as [H | H]; [injection H as <- _; repeat split; reflexivity|]). contradiction. Qed.
Lemma ceq_true a b : ceq a b = true <-> a = b.
Proof.
  unfold ceq, code. rewrite Nat.eqb_eq. split; [|intros ->; reflexivity]. intros H.
  rewrite <- (ascii_nat_embedding a), <- (ascii_nat_embedding b), H. reflexivity.
Qed.
Lemma value_positional ds : value ds = positional ds.
Proof.
  assert (H : forall ds a, fold_left (fun a d => (a * 10 + d)%Z) ds a = (a * 10 ^ Z.of_nat (length ds) + positional ds)%Z).
  { induction ds0 as [|d r IH]; intros a; cbn [fold_left length positional]; [cbn; lia|]. rewrite IH, Nat2Z.inj_succ, Z.pow_succ_r by lia. lia. }
  unfold value. rewrite H. lia.
Qed.
Lemma positional_app a b : positional (a ++ b) = (positional a * 10 ^ Z.of_nat (length b) + positional b)%Z.
Proof.
  induction a as [|d r IH]; cbn [app positional]; [lia|]. rewrite IH, app_length, Nat2Z.inj_add, Z.pow_add_r by lia. ring.
Qed.
(** what comes after the digits *)
Definition no_digit_first (r : text) : Prop := match r with [] => True | c :: _ => isdigit c = false end.
Lemma take_digits_text x ds r : digit_text x ds -> no_digit_first r -> take_digits (x ++ r) = (ds, r).
Proof.
  intros H Hr. induction H as [|c d x ds Hc H IH]; cbn [app take_digits].
  - destruct r as [|c q]; [reflexivity|]. cbn [take_digits]. cbn in Hr. rewrite Hr. reflexivity.
  - destruct (digit_some c d Hc) as [-> E]. rewrite IH, E. reflexivity.
Qed.
Lemma take_digits_out s : exists x, digit_text x (fst (take_digits s)) /\ s = x ++ snd (take_digits s) /\ no_digit_first (snd (take_digits s)).
Proof.
  induction s as [|c r IH]; cbn [take_digits].
  - exists []. repeat split. constructor.
  - destruct (isdigit c) eqn:E.
    + destruct (take_digits r) as [d q]. cbn [fst snd] in *. destruct IH as (x & H1 & H2 & H3). exists (c :: x). split; [constructor; [apply digit_iff, E|exact H1]|].
      split; [rewrite H2 at 1; reflexivity|exact H3].
    + exists []. split; [constructor|]. split; [reflexivity|]. cbn. exact E.
Qed.
Lemma drop_blank b s : all_blank b -> dropwhile isspace (b ++ s) = dropwhile isspace s.
Proof. intros H. induction H as [|c b Hc H IH]; [reflexivity|]. cbn [app dropwhile]. apply blank_iff in Hc. rewrite Hc. exact IH. Qed.
Definition no_blank_first (r : text) : Prop := match r with [] => True | c :: _ => isspace c = false end.
Lemma drop_none s : no_blank_first s -> dropwhile isspace s = s.
Proof. destruct s as [|c r]; [reflexivity|]. cbn. intros ->. reflexivity. Qed.
Lemma drop_out s : exists b, all_blank b /\ s = b ++ dropwhile isspace s /\ no_blank_first (dropwhile isspace s).
Proof.
  induction s as [|c r IH]; cbn [dropwhile].
  - exists []. repeat split. constructor.
  - destruct (isspace c) eqn:E.
    + destruct IH as (b & H1 & H2 & H3). exists (c :: b). split; [constructor; [apply blank_iff, E|exact H1]|]. split; [cbn; rewrite H2 at 1; reflexivity|exact H3].
    + exists []. split; [constructor|]. split; [reflexivity|]. cbn. exact E.
Qed.
(** after a number: nothing that continues it *)
Definition stops (r : text) : Prop := match r with [] => True | c :: _ => isdigit c = false /\ c <> "."%char /\ c <> "e"%char /\ c <> "E"%char end.
Lemma stops_digit r : stops r -> no_digit_first r.
Proof. destruct r; cbn; tauto. Qed.
Lemma blank_stops r : all_blank r -> stops r.
Proof.
  intros H. destruct H as [|c r Hc _]; [exact I|]. cbn in Hc. cbn.
  repeat (destruct Hc as [<- | Hc]; [repeat split; discriminate|]). contradiction.
Qed.
Lemma take_exp_text ex n r : exponent ex n -> stops r -> take_exp (ex ++ r) = n.
Proof.
  intros H Hr. destruct H as [|c sg k x ds Hc Hs Hx Hn].
  - cbn [app]. destruct r as [|c q]; [reflexivity|]. cbn [take_exp]. destruct Hr as (_ & _ & H1 & H2).
    destruct (ceq c c_e) eqn:E1; [apply ceq_true in E1; contradiction|]. destruct (ceq c c_E) eqn:E2; [apply ceq_true in E2; contradiction|]. reflexivity.
  - cbn [app take_exp]. replace (ceq c c_e || ceq c c_E)%bool with true by (destruct Hc as [<- | [<- | []]]; reflexivity).
    rewrite <- app_assoc. apply stops_digit in Hr. destruct x as [|x0 x]; [contradiction|]. pose proof Hx as Hx'. inversion Hx as [|? d0 ? ds0 Hd Hx0]; subst.
    destruct Hs; cbn [app take_sign].
    + destruct (digit_not_sign _ _ Hd) as (-> & -> & _). rewrite app_comm_cons, (take_digits_text _ _ r Hx' Hr). rewrite value_positional. lia.
    + replace (ceq "+"%char c_minus) with false by reflexivity. replace (ceq "+"%char c_plus) with true by reflexivity.
      rewrite app_comm_cons, (take_digits_text _ _ r Hx' Hr). rewrite value_positional. lia.
    + replace (ceq "-"%char c_minus) with true by reflexivity. rewrite app_comm_cons, (take_digits_text _ _ r Hx' Hr). rewrite value_positional. lia.
Qed.
Lemma exp_first ex n r : exponent ex n -> stops r -> match ex ++ r with [] => True | c :: _ => isdigit c = false /\ c <> "."%char end.
Proof.
  intros H Hr. destruct H as [|c sg k x ds Hc _ _ _]; cbn [app].
  - destruct r as [|c q]; [exact I|]. cbn in Hr. tauto.
  - destruct Hc as [<- | [<- | []]]; split; (reflexivity || discriminate).
Qed.
(** reading a number after its sign *)
Definition read_unsigned (s : text) : option R :=
  let (ip, s2) := take_digits s in let (fp, s3) := take_frac s2 in
  match ip ++ fp with [] => None | ds => Some (IZR (value ds) * powerRZ 10 (take_exp s3 - Z.of_nat (length fp))) end.
Lemma stod_split s : stod s = let (neg, s1) := take_sign (dropwhile isspace s) in option_map (fun v => if neg then - v else v) (read_unsigned s1).
Proof. unfold stod, read_unsigned. destruct (take_sign _) as [neg s1]. destruct (take_digits s1) as [a s2]. destruct (take_frac s2) as [b s3]. destruct (a ++ b); reflexivity. Qed.
Lemma powerRZ_nat_inv n : powerRZ 10 (- Z.of_nat n) = / 10 ^ n.
Proof. rewrite powerRZ_neg by lra. rewrite <- pow_powerRZ. first [reflexivity | rewrite pow_inv; reflexivity | rewrite Rinv_pow by lra; reflexivity]. Qed.
Lemma frac_value ds es : IZR (positional (ds ++ es)) * / 10 ^ length es = IZR (positional ds) + IZR (positional es) / 10 ^ length es.
Proof.
  rewrite positional_app, plus_IZR, mult_IZR, <- pow_IZR. field. apply pow_nonzero. lra.
Qed.
Lemma read_mantissa m a ex n r : mantissa m a -> exponent ex n -> stops r -> read_unsigned (m ++ ex ++ r) = Some (a * powerRZ 10 n).
Proof.
  intros Hm He Hr. pose proof (exp_first ex n r He Hr) as Hf. pose proof (take_exp_text ex n r He Hr) as Hx. unfold read_unsigned. destruct Hm as [x ds Hd Hn|x ds y es Hd Hy Hn].
  - rewrite (take_digits_text x ds (ex ++ r) Hd) by (destruct (ex ++ r); cbn in *; tauto).
    assert (E : take_frac (ex ++ r) = ([], ex ++ r)).
    { destruct (ex ++ r) as [|c q]; [reflexivity|]. cbn [take_frac]. destruct (ceq c c_dot) eqn:E; [apply ceq_true in E; tauto|reflexivity]. }
    rewrite E, app_nil_r. destruct ds as [|d ds]; [inversion Hd; subst; contradiction|]. rewrite value_positional, Hx. cbn [length]. rewrite Z.sub_0_r. reflexivity.
  - rewrite <- app_assoc. rewrite (take_digits_text x ds _ Hd) by reflexivity. cbn [app take_frac]. replace (ceq "."%char c_dot) with true by reflexivity.
    rewrite (take_digits_text y es (ex ++ r) Hy) by (destruct (ex ++ r); cbn in *; tauto).
    assert (HN : ds ++ es <> []). { intros E. apply app_eq_nil in E. destruct E as [-> ->]. inversion Hd; inversion Hy; subst. contradiction. }
    destruct (ds ++ es) as [|d q] eqn:E; [contradiction|]. rewrite <- E. rewrite value_positional, Hx. unfold Z.sub. rewrite powerRZ_add by lra. rewrite powerRZ_nat_inv.
    f_equal. rewrite <- frac_value. ring.
Qed.
Lemma mantissa_first m a s : mantissa m a -> exists c q, m ++ s = c :: q /\ isspace c = false /\ ceq c c_minus = false /\ ceq c c_plus = false.
Proof.
  intros H. assert (D : forall c x d ds, digit_text (c :: x) (d :: ds) -> isspace c = false /\ ceq c c_minus = false /\ ceq c c_plus = false).
  { intros c x d ds H0. inversion H0; subst. destruct (digit_not_sign c d) as (A & B & _); [assumption|]. split; [eapply digit_not_blank; eassumption|tauto]. }
  destruct H as [x ds Hd Hn|x ds y es Hd Hy Hn].
  - destruct x as [|c x]; [contradiction|]. destruct ds as [|d ds]; [inversion Hd|]. exists c, (x ++ s). split; [reflexivity|]. eapply D, Hd.
  - destruct x as [|c x].
    + exists "."%char, (y ++ s). repeat split.
    + destruct ds as [|d ds]; [inversion Hd|]. exists c, ((x ++ "."%char :: y) ++ s). split; [reflexivity|]. eapply D, Hd.
Qed.
Lemma stod_decimal b s v r : all_blank b -> decimal s v -> stops r -> stod (b ++ s ++ r) = Some v.
Proof.
  intros Hb (sg & k & m & a & ex & n & -> & Hs & Hm & He & ->) Hr. rewrite stod_split, drop_blank by exact Hb.
  rewrite <- !app_assoc. pose proof (read_mantissa m a ex n r Hm He Hr) as HR. destruct (mantissa_first m a (ex ++ r) Hm) as (c & q & E & H1 & H2 & H3). rewrite E in *.
  destruct Hs; cbn [app dropwhile].
  - rewrite H1. cbn [take_sign]. rewrite H2, H3, HR. cbn. f_equal. ring.
  - replace (isspace "+"%char) with false by reflexivity. cbn [take_sign]. replace (ceq "+"%char c_minus) with false by reflexivity. replace (ceq "+"%char c_plus) with true by reflexivity.
    rewrite HR. cbn. f_equal. ring.
  - replace (isspace "-"%char) with false by reflexivity. cbn [take_sign]. replace (ceq "-"%char c_minus) with true by reflexivity. rewrite HR. cbn. f_equal. ring.
Qed.
(** the reader takes the longest number it can *)
Lemma digits_span x : forall ds s x' ds' s', digit_text x ds -> no_digit_first s -> digit_text x' ds' -> x ++ s = x' ++ s' ->
  (x' = x /\ s' = s) \/ ((length x' < length x)%nat /\ exists c q d, s' = c :: q /\ is_digit c d).
Proof.
  induction x as [|c x IH]; intros ds s x' ds' s' Hd Hs Hd' E.
  - destruct x' as [|c' x']; [left; cbn in E; subst; split; reflexivity|]. exfalso. cbn in E. subst s. inversion Hd'; subst. cbn in Hs. destruct (digit_some c' y); [assumption|congruence].
  - inversion Hd as [|? d ? ds0 Hc Hx]; subst. destruct x' as [|c' x'].
    + right. cbn in E. split; [cbn; lia|]. exists c, (x ++ s), d. split; [symmetry; exact E|exact Hc].
    + cbn in E. injection E as <- E. inversion Hd' as [|? d' ? ds0' Hc' Hx']; subst. destruct (IH ds0 s x' ds0' s' Hx Hs Hx' E) as [[-> ->] | [H1 H2]].
      * left. split; reflexivity.
      * right. split; [cbn; lia|exact H2].
Qed.
Definition no_sign_first (q : text) : Prop := match q with [] => True | c :: _ => c <> "+"%char /\ c <> "-"%char end.
Lemma sign_out r : exists sg, sign_text sg (if fst (take_sign r) then -1 else 1)%Z /\ r = sg ++ snd (take_sign r) /\
  (forall sg' k' q, r = sg' ++ q -> sign_text sg' k' -> no_sign_first q -> sg' = sg /\ q = snd (take_sign r)).
Proof.
  destruct r as [|c r]; cbn [take_sign].
  - exists []. split; [constructor|]. split; [reflexivity|]. intros sg' k' q E Hs _. symmetry in E. apply app_eq_nil in E. exact E.
  - destruct (ceq c c_minus) eqn:E1; [|destruct (ceq c c_plus) eqn:E2]; cbn [fst snd].
    + apply ceq_true in E1. subst c. exists ["-"%char]. split; [constructor|]. split; [reflexivity|]. intros sg' k' q E Hs Hq. destruct Hs; cbn [app] in E.
      * subst q. cbn in Hq. destruct Hq as [_ Hq]. exfalso. apply Hq. reflexivity.
      * discriminate E.
      * injection E as E. subst. split; reflexivity.
    + apply ceq_true in E2. subst c. exists ["+"%char]. split; [constructor|]. split; [reflexivity|]. intros sg' k' q E Hs Hq. destruct Hs; cbn [app] in E.
      * subst q. cbn in Hq. destruct Hq as [Hq _]. exfalso. apply Hq. reflexivity.
      * injection E as E. subst. split; reflexivity.
      * discriminate E.
    + exists []. split; [constructor|]. split; [reflexivity|]. intros sg' k' q E Hs Hq. destruct Hs; cbn [app] in E.
      * subst q. split; reflexivity.
      * injection E as -> E. discriminate E2.
      * injection E as -> E. discriminate E1.
Qed.
Lemma digit_no_sign x ds q : digit_text x ds -> x <> [] -> no_sign_first (x ++ q).
Proof.
  intros H Hn. destruct H as [|c d x ds Hc _]; [contradiction|]. cbn. destruct (digit_not_sign c d Hc) as (A & B & _).
  split; intros ->; [discriminate B|discriminate A].
Qed.
Lemma digit_text_nil ds : digit_text [] ds -> ds = [].
Proof. intros H. inversion H. reflexivity. Qed.
Lemma exp_out s : exists ex r, s = ex ++ r /\ exponent ex (take_exp s) /\ (forall ex' n' r', s = ex' ++ r' -> exponent ex' n' -> (length ex' <= length ex)%nat).
Proof.
  destruct s as [|c s]; cbn [take_exp].
  - exists [], []. split; [reflexivity|]. split; [constructor|]. intros ex' n' r' E _. symmetry in E. apply app_eq_nil in E. destruct E as [-> _]. cbn; lia.
  - destruct (ceq c c_e || ceq c c_E)%bool eqn:Ec.
    + assert (Hc : In c ["e"%char; "E"%char]). { apply Bool.orb_true_iff in Ec. destruct Ec as [Ec | Ec]; apply ceq_true in Ec; subst c; cbn; tauto. }
      destruct (sign_out s) as (sg & Hsg & Es & Hmax). destruct (take_sign s) as [neg r1]. cbn [fst snd] in *.
      destruct (take_digits_out r1) as (x & Hx & Ex & Hnd). destruct (take_digits r1) as [ds r2]. cbn [fst snd] in *.
      assert (Hall : forall ex' n' r', c :: s = ex' ++ r' -> exponent ex' n' -> ex' = [] \/ exists x' ds', ex' = c :: sg ++ x' /\ digit_text x' ds' /\ x' <> [] /\ (length x' <= length x)%nat).
      { intros ex' n' r' E H. destruct H as [|c' sg' k' x' ds' Hc' Hs' Hx' Hn']; [left; reflexivity|right]. cbn [app] in E. injection E as <- E. rewrite <- app_assoc in E.
        destruct (Hmax sg' k' (x' ++ r') E Hs' (digit_no_sign x' ds' r' Hx' Hn')) as [-> E2]. exists x', ds'. repeat split; try assumption.
        rewrite Ex in E2. destruct (digits_span x ds r2 x' ds' r' Hx Hnd Hx' (eq_sym E2)) as [[-> _] | [H _]]; lia. }
      destruct ds as [|d ds].
      * exists [], (c :: s). split; [reflexivity|]. split; [constructor|]. intros ex' n' r' E H. destruct (Hall ex' n' r' E H) as [-> | (x' & ds' & _ & _ & Hn & Hl)]; [cbn; lia|].
        inversion Hx; subst. destruct x'; [contradiction|cbn in Hl; lia].
      * exists (c :: sg ++ x), r2. split; [cbn; rewrite <- app_assoc, <- Ex, <- Es; reflexivity|]. split.
        -- replace (if neg then (- value (d :: ds))%Z else value (d :: ds)) with ((if neg then -1 else 1) * positional (d :: ds))%Z by (rewrite value_positional; destruct neg; lia).
           constructor; [exact Hc|exact Hsg|exact Hx|]. intros ->. inversion Hx.
        -- intros ex' n' r' E H. destruct (Hall ex' n' r' E H) as [-> | (x' & ds' & -> & _ & _ & Hl)]; cbn; [lia|]. rewrite !app_length. lia.
    + exists [], (c :: s). split; [reflexivity|]. split; [constructor|]. intros ex' n' r' E H. destruct H as [|c' sg k x ds Hc _ _ _]; [cbn; lia|].
      cbn in E. injection E as <- E. exfalso. apply Bool.orb_false_iff in Ec. destruct Ec as [A B]. destruct Hc as [<- | [<- | []]]; [discriminate A|discriminate B].
Qed.
Lemma exp_after_digit ex n r c q d : exponent ex n -> ex ++ r = c :: q -> is_digit c d \/ c = "."%char -> ex = [].
Proof.
  intros H E Hc. destruct H as [|c' sg k x ds Hc' _ _ _]; [reflexivity|]. exfalso. cbn in E. injection E as -> E.
  assert (HD : forall d, ~ is_digit c d). { intros d' Hd. destruct (digit_not_sign c d' Hd) as (_ & _ & _ & A & B). destruct Hc' as [<- | [<- | []]]; [discriminate A|discriminate B]. }
  destruct Hc as [Hc | ->]; [exact (HD d Hc)|]. destruct Hc' as [Hc' | [Hc' | []]]; discriminate Hc'.
Qed.
Lemma read_out s : match read_unsigned s with
  | Some v => exists m a ex n r, s = m ++ ex ++ r /\ mantissa m a /\ exponent ex n /\ v = a * powerRZ 10 n /\
      (forall m' a' ex' n' r', s = m' ++ ex' ++ r' -> mantissa m' a' -> exponent ex' n' -> (length (m' ++ ex') <= length (m ++ ex))%nat)
  | None => forall m a r, s = m ++ r -> ~ mantissa m a end.
Proof.
  unfold read_unsigned. destruct (take_digits_out s) as (x & Hx & Ex & Hnd). destruct (take_digits s) as [ds s2]. cbn [fst snd] in *.
  assert (HN : s2 = [] \/ (exists c q, s2 = c :: q /\ c <> "."%char) \/ exists q, s2 = "."%char :: q).
  { destruct s2 as [|c q]; [left; reflexivity|right]. destruct (ascii_dec c "."%char) as [-> | N]; [right; exists q; reflexivity|left; exists c, q; split; [reflexivity|exact N]]. }
  assert (Hcase : (take_frac s2 = ([], s2) /\ (forall q, s2 <> "."%char :: q)) \/ exists q, s2 = "."%char :: q).
  { destruct HN as [-> | [(c & q & -> & N) | H]]; [left|left|right; exact H].
    - split; [reflexivity|discriminate].
    - split; [|intros q' E; injection E as E _; contradiction]. cbn [take_frac]. destruct (ceq c c_dot) eqn:E; [apply ceq_true in E; contradiction|reflexivity]. }
  clear HN. destruct Hcase as [[Ef Hnp] | [q ->]].
  - rewrite Ef, app_nil_r. destruct (exp_out s2) as (ex & r & E2 & He & Hm).
    assert (Hall : forall m' a' t, s = m' ++ t -> mantissa m' a' -> (m' = x /\ t = s2) \/ ((length m' < length x)%nat /\ exists c q d, t = c :: q /\ is_digit c d)).
    { intros m' a' t E H. rewrite Ex in E. destruct H as [x' ds' Hx' Hn'|x' ds' y es Hx' Hy Hn'].
      - exact (digits_span x ds s2 x' ds' t Hx Hnd Hx' E).
      - rewrite <- app_assoc in E. cbn [app] in E. destruct (digits_span x ds s2 x' ds' _ Hx Hnd Hx' E) as [[_ E3] | [_ (c & q & d & E3 & Hd)]].
        + exfalso. exact (Hnp (y ++ t) (eq_sym E3)).
        + exfalso. injection E3 as <- _. destruct (digit_not_sign _ _ Hd) as (_ & _ & A & _). discriminate A. }
    destruct ds as [|d ds].
    + intros m a t E H. inversion Hx; subst x. destruct (Hall m a t E H) as [[-> _] | [Hl _]]; [|cbn in Hl; lia]. destruct (mantissa_first [] a [] H) as (c & q & E3 & _). discriminate E3.
    + exists x, (IZR (positional (d :: ds))), ex, (take_exp s2), r. split; [rewrite <- E2; exact Ex|]. split; [constructor; [exact Hx|intros ->; inversion Hx]|]. split; [exact He|].
      split; [rewrite value_positional; cbn [length]; rewrite Z.sub_0_r; reflexivity|].
      intros m' a' ex' n' r' E H He'. rewrite !app_length. destruct (Hall m' a' _ E H) as [[-> E3] | [Hl (c & q & d' & E3 & Hd)]].
      * pose proof (Hm ex' n' r' (eq_sym E3) He'). lia.
      * rewrite (exp_after_digit ex' n' r' c q d' He' E3 (or_introl Hd)). cbn. lia.
  - cbn [take_frac]. replace (ceq "."%char c_dot) with true by reflexivity. destruct (take_digits_out q) as (y & Hy & Ey & Hnd2). destruct (take_digits q) as [es s3]. cbn [fst snd] in *.
    destruct (exp_out s3) as (ex & r & E2 & He & Hm).
    assert (Hall : forall m' a' t, s = m' ++ t -> mantissa m' a' -> (m' = x ++ "."%char :: y /\ t = s3) \/ ((length m' <= length x + length y)%nat /\ m' <> [] /\ exists c q d, t = c :: q /\ (is_digit c d \/ c = "."%char))).
    { intros m' a' t E H. assert (Hm' : m' <> []) by (intros ->; destruct (mantissa_first [] a' [] H) as (? & ? & E3 & _); discriminate E3). rewrite Ex in E. destruct H as [x' ds' Hx' Hn'|x' ds' y' es' Hx' Hy' Hn'].
      - right. destruct (digits_span x ds _ x' ds' t Hx Hnd Hx' E) as [[-> E3] | [Hl (c & q' & d & E3 & Hd)]].
        + split; [lia|]. split; [exact Hm'|]. exists "."%char, q, 0%Z. split; [exact E3|right; reflexivity].
        + split; [lia|]. split; [exact Hm'|]. exists c, q', d. split; [exact E3|left; exact Hd].
      - rewrite <- app_assoc in E. cbn [app] in E. destruct (digits_span x ds _ x' ds' _ Hx Hnd Hx' E) as [[-> E3] | [_ (c & q' & d & E3 & Hd)]].
        + injection E3 as E3. rewrite Ey in E3. destruct (digits_span y es s3 y' es' t Hy Hnd2 Hy' (eq_sym E3)) as [[-> ->] | [Hl (c & q' & d & E4 & Hd)]].
          * left. split; reflexivity.
          * right. split; [rewrite app_length; cbn; lia|]. split; [exact Hm'|]. exists c, q', d. split; [exact E4|left; exact Hd].
        + exfalso. injection E3 as <- _. destruct (digit_not_sign _ _ Hd) as (_ & _ & A & _). discriminate A. }
    destruct (ds ++ es) as [|d0 l0] eqn:E0.
    + intros m a t E H. apply app_eq_nil in E0. destruct E0 as [-> ->]. inversion Hx; inversion Hy; subst x y. destruct (Hall m a t E H) as [[-> _] | [Hl [Hn _]]].
      * cbn [app] in H. inversion H as [x' ds' Hx' Hn' E3|x' ds' y' es' Hx' Hy' Hn' E3]; subst.
        -- inversion Hx' as [|? ? ? ? Hd]; subst. destruct (digit_not_sign _ _ Hd) as (_ & _ & A & _). discriminate A.
        -- destruct x' as [|c x']; [destruct y'; [apply Hn'; reflexivity|discriminate E3]|]. destruct x'; discriminate E3.
      * destruct m; [contradiction|cbn in Hl; lia].
    + exists (x ++ "."%char :: y), (IZR (positional ds) + IZR (positional es) / 10 ^ length es), ex, (take_exp s3), r.
      split; [rewrite <- app_assoc; cbn [app]; rewrite <- E2, <- Ey; exact Ex|].
      split; [constructor; try assumption; intros E; apply app_eq_nil in E; destruct E as [-> ->]; apply digit_text_nil in Hx; apply digit_text_nil in Hy; subst; discriminate E0|].
      split; [exact He|]. split.
      * rewrite <- E0, value_positional. unfold Z.sub. rewrite powerRZ_add by lra. rewrite powerRZ_nat_inv, <- frac_value. ring.
      * intros m' a' ex' n' r' E H He'. rewrite !app_length. destruct (Hall m' a' _ E H) as [[-> E3] | [Hl [_ (c & q' & d' & E3 & Hd)]]].
        -- pose proof (Hm ex' n' r' (eq_sym E3) He'). rewrite app_length. cbn. lia.
        -- rewrite (exp_after_digit ex' n' r' c q' d' He' E3 Hd). cbn. lia.
Qed.
Lemma mantissa_no_sign m a q : mantissa m a -> no_sign_first (m ++ q) /\ no_blank_first (m ++ q).
Proof.
  intros H. destruct (mantissa_first m a q H) as (c & t & -> & A & B & C). cbn. split; [|exact A]. split; intros ->; [discriminate C|discriminate B].
Qed.
Lemma sign_no_blank sg k m a q : sign_text sg k -> mantissa m a -> no_blank_first (sg ++ m ++ q).
Proof. intros H Hm. destruct H; cbn [app]; [apply (mantissa_no_sign m a q Hm)|reflexivity|reflexivity]. Qed.
Lemma stod_some s v : stod s = Some v -> exists b n r, s = b ++ n ++ r /\ all_blank b /\ decimal n v /\
  (forall b' n' r' v', s = b' ++ n' ++ r' -> all_blank b' -> decimal n' v' -> b' = b /\ (length n' <= length n)%nat).
Proof.
  intros H. rewrite stod_split in H. destruct (drop_out s) as (b & Hb & Es & Hnb). set (t := dropwhile isspace s) in *.
  destruct (sign_out t) as (sg & Hsg & Et & Hmax). destruct (take_sign t) as [neg s1]. cbn [fst snd] in *. pose proof (read_out s1) as HR.
  destruct (read_unsigned s1) as [a|]; [|discriminate H]. cbn in H. injection H as <-. destruct HR as (m & a0 & ex & n & r & E1 & Hm & He & -> & Hl).
  exists b, (sg ++ m ++ ex), r. split; [rewrite Es, Et, E1, <- !app_assoc; reflexivity|]. split; [exact Hb|]. split.
  - exists sg, (if neg then -1 else 1)%Z, m, a0, ex, n. repeat split; try assumption. destruct neg; ring.
  - intros b' n' r' v' E Hb' (sg' & k' & m' & a' & ex' & n2 & -> & Hs' & Hm' & He' & _).
    assert (Et' : t = sg' ++ m' ++ ex' ++ r').
    { unfold t. rewrite E, drop_blank by exact Hb'. rewrite drop_none; [rewrite <- !app_assoc; reflexivity|]. rewrite <- !app_assoc. exact (sign_no_blank sg' k' m' a' _ Hs' Hm'). }
    split.
    + rewrite Es, Et' in E. rewrite <- !app_assoc in E. apply app_inv_tail in E. symmetry; exact E.
    + destruct (Hmax sg' k' _ Et' Hs' (proj1 (mantissa_no_sign m' a' _ Hm'))) as [-> E2].
      pose proof (Hl m' a' ex' n2 r' (eq_sym E2) Hm' He'). rewrite !app_length in *. lia.
Qed.
Lemma stod_none s : stod s = None -> forall b n r v, s = b ++ n ++ r -> all_blank b -> ~ decimal n v.
Proof.
  intros H b n r v E Hb (sg' & k' & m' & a' & ex' & n2 & -> & Hs' & Hm' & He' & _). rewrite stod_split in H. subst s.
  rewrite drop_blank in H by exact Hb. rewrite <- !app_assoc in H. rewrite drop_none in H by exact (sign_no_blank sg' k' m' a' _ Hs' Hm').
  set (t := sg' ++ m' ++ ex' ++ r) in *. destruct (sign_out t) as (sg & Hsg & Et & Hmax). destruct (take_sign t) as [neg s1]. cbn [fst snd] in *.
  destruct (Hmax sg' k' _ eq_refl Hs' (proj1 (mantissa_no_sign m' a' _ Hm'))) as [_ E2]. pose proof (read_out s1) as HR. destruct (read_unsigned s1) as [a|]; [discriminate H|].
  exact (HR m' a' _ (eq_sym E2) Hm').
Qed.
(** whole numbers *)
Lemma strtol_whole b s z r : all_blank b -> whole_number s z -> no_digit_first r -> strtol (b ++ s ++ r) = Some z.
Proof.
  intros Hb (sg & k & x & ds & -> & Hs & Hx & Hn & ->) Hr. unfold strtol. rewrite drop_blank by exact Hb. rewrite <- app_assoc.
  assert (HM : mantissa x (IZR (positional ds))) by (constructor; assumption). rewrite drop_none by exact (sign_no_blank sg k x _ r Hs HM).
  destruct (sign_out (sg ++ x ++ r)) as (sg' & Hsg & _ & Hmax). destruct (Hmax sg k (x ++ r) eq_refl Hs (digit_no_sign x ds r Hx Hn)) as [<- E2].
  destruct (take_sign (sg ++ x ++ r)) as [neg s1]. cbn [fst snd] in *. subst s1. rewrite (take_digits_text x ds r Hx Hr).
  destruct ds as [|d ds]; [inversion Hx; subst; contradiction|]. f_equal. rewrite value_positional.
  destruct neg; inversion Hsg; subst; inversion Hs; subst; lia.
Qed.
Lemma strtol_out s : match strtol s with
  | Some z => exists b n r, s = b ++ n ++ r /\ all_blank b /\ whole_number n z /\ no_digit_first r
  | None => forall b n r z, s = b ++ n ++ r -> all_blank b -> ~ whole_number n z end.
Proof.
  unfold strtol. destruct (drop_out s) as (b & Hb & Es & Hnb). set (t := dropwhile isspace s) in *.
  destruct (sign_out t) as (sg & Hsg & Et & Hmax). destruct (take_sign t) as [neg s1]. cbn [fst snd] in *.
  destruct (take_digits_out s1) as (x & Hx & Ex & Hnd). destruct (take_digits s1) as [ds s2]. cbn [fst snd] in *.
  destruct ds as [|d ds].
  - intros b' n r z E Hb' (sg' & k & x' & ds' & -> & Hs' & Hx' & Hn' & _). rewrite <- app_assoc in E.
    assert (HM : mantissa x' (IZR (positional ds'))) by (constructor; assumption).
    assert (Et' : t = sg' ++ x' ++ r) by (unfold t; rewrite E, drop_blank by exact Hb'; apply drop_none; exact (sign_no_blank sg' k x' _ r Hs' HM)).
    destruct (Hmax sg' k _ Et' Hs' (digit_no_sign x' ds' r Hx' Hn')) as [_ E2]. inversion Hx; subst x. cbn in Ex. subst s2.
    destruct Hx' as [|c d' x' ds' Hc _]; [contradiction|]. rewrite <- E2 in Hnd. cbn in Hnd. destruct (digit_some c d' Hc). congruence.
  - exists b, (sg ++ x), s2. split; [rewrite Es, Et, Ex, <- app_assoc; reflexivity|]. split; [exact Hb|]. split; [|exact Hnd].
    exists sg, (if neg then -1 else 1)%Z, x, (d :: ds). repeat split; try assumption; [intros ->; inversion Hx|]. rewrite value_positional. destruct neg; lia.
Qed.
Lemma stoi_whole b s z r : all_blank b -> whole_number s z -> no_digit_first r -> stoi (b ++ s ++ r) = if Z_le_dec (- 2 ^ 31) z then if Z_lt_dec z (2 ^ 31) then Some z else None else None.
Proof.
  intros Hb Hs Hr. unfold stoi. rewrite (strtol_whole b s z r Hb Hs Hr). destruct (Z.leb_spec (- 2 ^ 31) z), (Z.ltb_spec z (2 ^ 31)), (Z_le_dec (- 2 ^ 31) z), (Z_lt_dec z (2 ^ 31)); cbn [andb]; (reflexivity || lia).
Qed.
Lemma int_in b s z r : all_blank b -> whole_number s z -> no_digit_first r -> int32 z -> stoi (b ++ s ++ r) = Some z.
Proof. intros Hb Hs Hr [H1 H2]. rewrite (stoi_whole b s z r Hb Hs Hr). destruct (Z_le_dec _ _); [|lia]. destruct (Z_lt_dec _ _); [reflexivity|lia]. Qed.
Lemma int_out b s z r : all_blank b -> whole_number s z -> no_digit_first r -> ~ int32 z -> stoi (b ++ s ++ r) = None.
Proof.
  intros Hb Hs Hr H. rewrite (stoi_whole b s z r Hb Hs Hr). destruct (Z_le_dec _ _); [|reflexivity]. destruct (Z_lt_dec _ _); [|reflexivity]. exfalso. apply H. split; assumption.
Qed.
Lemma size_in b s z r : all_blank b -> whole_number s z -> no_digit_first r -> uint64 z -> stoul (b ++ s ++ r) = Some z.
Proof.
  intros Hb Hs Hr [H1 H2]. unfold stoul. rewrite (strtol_whole b s z r Hb Hs Hr). rewrite Z.abs_eq by exact H1. destruct (Z.ltb_spec z (2 ^ 64)); [|lia]. rewrite Z.mod_small by lia. reflexivity.
Qed.
Lemma size_negative b s z r : all_blank b -> whole_number s z -> no_digit_first r -> (- 2 ^ 64 < z < 0)%Z -> stoul (b ++ s ++ r) = Some (2 ^ 64 + z)%Z.
Proof.
  intros Hb Hs Hr H. unfold stoul. rewrite (strtol_whole b s z r Hb Hs Hr). rewrite Z.abs_neq by lia. destruct (Z.ltb_spec (- z) (2 ^ 64)); [|lia]. f_equal.
  symmetry. apply Z.mod_unique with (q := (-1)%Z); lia.
Qed.
Lemma size_out b s z r : all_blank b -> whole_number s z -> no_digit_first r -> (2 ^ 64 <= Z.abs z)%Z -> stoul (b ++ s ++ r) = None.
Proof. intros Hb Hs Hr H. unfold stoul. rewrite (strtol_whole b s z r Hb Hs Hr). destruct (Z.ltb_spec (Z.abs z) (2 ^ 64)); [lia|reflexivity]. Qed.
(** words *)
Definition number_chars : list ascii := list_ascii_of_string "0123456789+-.eE".
Lemma digit_chars x ds : digit_text x ds -> List.Forall (fun c => In c number_chars) x.
Proof.
  intros H. induction H as [|c d x ds Hc _ IH]; constructor; [|exact IH]. unfold is_digit in Hc. cbn [In] in Hc.
  repeat (destruct Hc as [Hc | Hc]; [injection Hc as <- _; cbn; tauto|]). contradiction.
Qed.
Lemma sign_chars x k : sign_text x k -> List.Forall (fun c => In c number_chars) x.
Proof. intros H. destruct H; repeat constructor; cbn; tauto. Qed.
Lemma decimal_chars n v : decimal n v -> List.Forall (fun c => In c number_chars) n /\ n <> [].
Proof.
  intros (sg & k & m & a & ex & z & -> & Hs & Hm & He & _). split.
  - apply Forall_app. split; [exact (sign_chars sg k Hs)|]. apply Forall_app. split.
    + destruct Hm as [x ds Hx _|x ds y es Hx Hy _]; [exact (digit_chars x ds Hx)|]. apply Forall_app. split; [exact (digit_chars x ds Hx)|]. constructor; [cbn; tauto|exact (digit_chars y es Hy)].
    + destruct He as [|c sg' k' x ds Hc Hs' Hx _]; [constructor|]. constructor; [destruct Hc as [<- | [<- | []]]; cbn; tauto|]. apply Forall_app. split; [exact (sign_chars sg' k' Hs')|exact (digit_chars x ds Hx)].
  - intros E. apply app_eq_nil in E. destruct E as [_ E]. apply app_eq_nil in E. destruct E as [-> _]. destruct (mantissa_first [] a [] Hm) as (? & ? & E & _). discriminate E.
Qed.
Lemma whole_decimal n z : whole_number n z -> decimal n (IZR z).
Proof.
  intros (sg & k & x & ds & -> & Hs & Hx & Hn & ->). exists sg, k, x, (IZR (positional ds)), [], 0%Z. split; [rewrite app_nil_r; reflexivity|].
  split; [exact Hs|]. split; [constructor; assumption|]. split; [constructor|]. rewrite mult_IZR. cbn. ring.
Qed.
Lemma number_char_word c : In c number_chars -> isspace c = false.
Proof. intros H. cbn in H. repeat (destruct H as [<- | H]; [reflexivity|]). contradiction. Qed.
Lemma decimal_word n v : decimal n v -> List.Forall (fun c => isspace c = false) n /\ n <> [].
Proof. intros H. destruct (decimal_chars n v H) as [A B]. split; [|exact B]. eapply Forall_impl; [|exact A]. intros c Hc. exact (number_char_word c Hc). Qed.
Lemma all_blank_space b : all_blank b -> List.Forall (fun c => isspace c = true) b.
Proof. intros H. eapply Forall_impl; [|exact H]. intros c Hc. apply blank_iff, Hc. Qed.
Lemma split_items {A} (P : text -> A -> Prop) (f : text -> option A) : (forall w x, P w x -> f w = Some x /\ List.Forall (fun c => isspace c = false) w /\ w <> []) ->
  forall s l, spaced_items P s l -> mapM f (split_string s) = Some l.
Proof.
  intros HP s l H. unfold split_string. induction H as [b Hb|b w x Hb Hw|b w x c s l Hb Hw Hc H IH].
  - rewrite split_spaces by exact (all_blank_space b Hb). reflexivity.
  - destruct (HP w x Hw) as (E & Hs & Hn). rewrite split_lead by exact (all_blank_space b Hb). rewrite <- (app_nil_r w) at 1. rewrite split_word by exact Hs. cbn [split_ws]. rewrite app_nil_r.
    destruct (rev w) as [|y q] eqn:Er; [apply (f_equal (@rev _)) in Er; rewrite rev_involutive in Er; cbn in Er; contradiction|]. rewrite <- Er, rev_involutive. cbn [mapM]. rewrite E. reflexivity.
  - destruct (HP w x Hw) as (E & Hs & Hn). rewrite split_lead by exact (all_blank_space b Hb). rewrite split_word by exact Hs. rewrite app_nil_r. cbn [split_ws]. rewrite (proj2 (blank_iff c) Hc).
    destruct (rev w) as [|y q] eqn:Er; [apply (f_equal (@rev _)) in Er; rewrite rev_involutive in Er; cbn in Er; contradiction|]. rewrite <- Er, rev_involutive. cbn [mapM]. rewrite E, IH. reflexivity.
Qed.
Lemma list_double s l : spaced_items decimal s l -> split_string_double s = Some l.
Proof.
  apply split_items. intros w x H. split; [|exact (decimal_word w x H)]. pose proof (stod_decimal [] w x [] (Forall_nil _) H I) as E. cbn [app] in E. rewrite app_nil_r in E. exact E.
Qed.
Lemma list_int s l : spaced_items (fun w z => whole_number w z /\ int32 z) s l -> split_string_int s = Some l.
Proof.
  apply split_items. intros w x [H H2]. split; [|exact (decimal_word w _ (whole_decimal w x H))]. pose proof (int_in [] w x [] (Forall_nil _) H I H2) as E. cbn [app] in E. rewrite app_nil_r in E. exact E.
Qed.
Lemma list_size s l : spaced_items (fun w z => whole_number w z /\ uint64 z) s l -> split_string_size_type s = Some l.
Proof.
  apply split_items. intros w x [H H2]. split; [|exact (decimal_word w _ (whole_decimal w x H))]. pose proof (size_in [] w x [] (Forall_nil _) H I H2) as E. cbn [app] in E. rewrite app_nil_r in E. exact E.
Qed.
(** elements *)
Lemma nonempty_mid {A} (b s r : list A) : s <> [] -> b ++ s ++ r <> [].
Proof. intros H E. apply app_eq_nil in E. destruct E as [_ E]. apply app_eq_nil in E. destruct E as [E _]. contradiction. Qed.
Lemma convert_leaf {A} nm at_ s ex (f : text -> option A) : s <> [] -> convert (Elem nm at_ [Data s]) ex f = match f s with Some a => POk a | None => invalid (Elem nm at_ [Data s]) ex end.
Proof. intros H. unfold convert, get_string. cbn [children node_value]. destruct s; [contradiction|reflexivity]. Qed.
Lemma leaf_double nm at_ b s v r : all_blank b -> decimal s v -> all_blank r -> get_double (Elem nm at_ [Data (b ++ s ++ r)]) = POk v.
Proof. intros Hb Hs Hr. unfold get_double. rewrite convert_leaf by exact (nonempty_mid b s r (proj2 (decimal_word s v Hs))). rewrite (stod_decimal b s v r Hb Hs (blank_stops r Hr)). reflexivity. Qed.
Lemma whole_nonempty s z : whole_number s z -> s <> [].
Proof. intros H. exact (proj2 (decimal_word s _ (whole_decimal s z H))). Qed.
Lemma leaf_int nm at_ b s z r : all_blank b -> whole_number s z -> all_blank r -> int32 z -> get_int (Elem nm at_ [Data (b ++ s ++ r)]) = POk z.
Proof. intros Hb Hs Hr H. unfold get_int. rewrite convert_leaf by exact (nonempty_mid b s r (whole_nonempty s z Hs)). rewrite (int_in b s z r Hb Hs (stops_digit r (blank_stops r Hr)) H). reflexivity. Qed.
Lemma leaf_int_out nm at_ b s z r : all_blank b -> whole_number s z -> all_blank r -> ~ int32 z -> exists t, get_int (Elem nm at_ [Data (b ++ s ++ r)]) = PErr (InvalidType nm t "int").
Proof. intros Hb Hs Hr H. unfold get_int. rewrite convert_leaf by exact (nonempty_mid b s r (whole_nonempty s z Hs)). rewrite (int_out b s z r Hb Hs (stops_digit r (blank_stops r Hr)) H). eexists. reflexivity. Qed.
Lemma leaf_size nm at_ b s z r : all_blank b -> whole_number s z -> all_blank r -> uint64 z -> get_size_type (Elem nm at_ [Data (b ++ s ++ r)]) = POk z.
Proof. intros Hb Hs Hr H. unfold get_size_type. rewrite convert_leaf by exact (nonempty_mid b s r (whole_nonempty s z Hs)). rewrite (size_in b s z r Hb Hs (stops_digit r (blank_stops r Hr)) H). reflexivity. Qed.
Lemma leaf_size_negative nm at_ b s z r : all_blank b -> whole_number s z -> all_blank r -> (- 2 ^ 64 < z < 0)%Z -> get_size_type (Elem nm at_ [Data (b ++ s ++ r)]) = POk (2 ^ 64 + z)%Z.
Proof. intros Hb Hs Hr H. unfold get_size_type. rewrite convert_leaf by exact (nonempty_mid b s r (whole_nonempty s z Hs)). rewrite (size_negative b s z r Hb Hs (stops_digit r (blank_stops r Hr)) H). reflexivity. Qed.
Lemma leaf_size_out nm at_ b s z r : all_blank b -> whole_number s z -> all_blank r -> (2 ^ 64 <= Z.abs z)%Z -> exists t, get_size_type (Elem nm at_ [Data (b ++ s ++ r)]) = PErr (InvalidType nm t "size_t").
Proof. intros Hb Hs Hr H. unfold get_size_type. rewrite convert_leaf by exact (nonempty_mid b s r (whole_nonempty s z Hs)). rewrite (size_out b s z r Hb Hs (stops_digit r (blank_stops r Hr)) H). eexists. reflexivity. Qed.
Lemma leaf_vector nm at_ s l : s <> [] -> spaced_items decimal s l -> get_vector_double (Elem nm at_ [Data s]) = POk l.
Proof. intros Hn H. unfold get_vector_double, is_empty. cbn [children]. rewrite convert_leaf by exact Hn. rewrite (list_double s l H). reflexivity. Qed.
Lemma leaf_vector_size nm at_ s l : s <> [] -> spaced_items (fun w z => whole_number w z /\ uint64 z) s l -> get_vector_size_type (Elem nm at_ [Data s]) = POk l.
Proof. intros Hn H. unfold get_vector_size_type, is_empty. cbn [children]. rewrite convert_leaf by exact Hn. rewrite (list_size s l H). reflexivity. Qed.
Lemma leaf_refused nm at_ s : s <> [] -> (forall b n r v, s = b ++ n ++ r -> all_blank b -> ~ decimal n v) -> exists t, get_double (Elem nm at_ [Data s]) = PErr (InvalidType nm t "double").
Proof.
  intros Hn H. unfold get_double. rewrite convert_leaf by exact Hn. destruct (stod s) as [v|] eqn:E.
  - exfalso. destruct (stod_some s v E) as (b & n & r & Es & Hb & Hd & _). exact (H b n r v Es Hb Hd).
  - eexists. reflexivity.
Qed.
Lemma leaf_longest nm at_ s v : get_double (Elem nm at_ [Data s]) = POk v -> exists b n r, s = b ++ n ++ r /\ all_blank b /\ decimal n v /\
  (forall b' n' r' v', s = b' ++ n' ++ r' -> all_blank b' -> decimal n' v' -> b' = b /\ (length n' <= length n)%nat).
Proof.
  intros H. destruct s as [|c s]; [discriminate H|]. unfold get_double in H. rewrite convert_leaf in H by discriminate. destruct (stod (c :: s)) as [w|] eqn:E; [|discriminate H].
  injection H as ->. exact (stod_some _ _ E).
Qed.
Lemma leaf_object F nm at_ b s v r : (forall t, ~ In ("type"%string, t) at_) -> all_blank b -> decimal s v -> all_blank r ->
  get_object F (Elem nm at_ [Data (b ++ s ++ r)]) = POk (Obj "ConstantInterpolate" [("v"%string, VDouble v)]).
Proof.
  intros Ht Hb Hs Hr. cbn [get_object]. replace (get_type_of_node (Elem nm at_ [Data (b ++ s ++ r)])) with "none"%string.
  - cbn [String.eqb Ascii.eqb Bool.eqb]. rewrite (leaf_double nm at_ b s v r Hb Hs Hr). reflexivity.
  - cbn [get_type_of_node]. clear - Ht. induction at_ as [|[k t] q IH]; [reflexivity|]. cbn [find fst snd]. destruct (String.eqb_spec "type" k) as [<- | N].
    + exfalso. apply (Ht t). left. reflexivity.
    + first [rewrite <- IH by (intros t' Hin; apply (Ht t'); right; exact Hin); reflexivity | apply IH; intros t' Hin; apply (Ht t'); right; exact Hin].
Qed.
Lemma text_eqb_true a : forall b, text_eqb a b = true <-> a = b.
Proof.
  induction a as [|x a IH]; intros [|y b]; cbn [text_eqb]; try (split; [discriminate|discriminate]); [split; reflexivity|].
  rewrite Bool.andb_true_iff, ceq_true, IH. split; [intros [-> ->]; reflexivity|intros E; injection E as -> ->; split; reflexivity].
Qed.
Lemma leaf_bool nm at_ s v : get_bool (Elem nm at_ [Data s]) = POk v <-> In (s, v) (map (fun w => (list_ascii_of_string (fst w), snd w))
  [("true", true); ("True", true); ("T", true); ("1", true); ("false", false); ("False", false); ("F", false); ("0", false)]%string).
Proof.
  unfold get_bool, get_string. cbn [children node_value]. cbn [map fst snd]. split.
  - intros H. destruct s as [|c s]; [discriminate H|]. cbn [pbind] in H. set (w := c :: s) in *.
    destruct (text_eqb w (t_of "true") || text_eqb w (t_of "True") || text_eqb w (t_of "T") || text_eqb w (t_of "1"))%bool eqn:E.
    + injection H as <-. rewrite !Bool.orb_true_iff, !text_eqb_true in E. destruct E as [[[E | E] | E] | E]; rewrite E; cbn [In]; unfold t_of; tauto.
    + destruct (text_eqb w (t_of "false") || text_eqb w (t_of "False") || text_eqb w (t_of "F") || text_eqb w (t_of "0"))%bool eqn:E2; [|discriminate H].
      injection H as <-. rewrite !Bool.orb_true_iff, !text_eqb_true in E2. destruct E2 as [[[E2 | E2] | E2] | E2]; rewrite E2; cbn [In]; unfold t_of; tauto.
  - intros H. cbn [In] in H. repeat (destruct H as [H | H]; [injection H as <- <-; reflexivity|]). contradiction.
Qed.
(** what is accepted although it is not a number *)
Lemma not_number s c : In c s -> ~ In c number_chars -> ~ In c blanks -> ~ is_number s.
Proof.
  intros Hc H1 H2 (b & n & r & v & -> & Hb & Hn & Hr). apply decimal_chars in Hn. destruct Hn as [Hn _]. unfold all_blank in *. rewrite Forall_forall in Hb, Hn, Hr.
  apply in_app_or in Hc. destruct Hc as [Hc | Hc]; [exact (H2 (Hb c Hc))|]. apply in_app_or in Hc. destruct Hc as [Hc | Hc]; [exact (H1 (Hn c Hc))|exact (H2 (Hr c Hc))].
Qed.
