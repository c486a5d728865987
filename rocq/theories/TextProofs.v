(** Round trip lemmas for the text conversions. *)
From Coq Require Import String Ascii ZArith.
From Verif Require Import Base.
From Verif Require Import InterpModel.
From Verif Require Import TextModel.

Definition dig (d : Z) : Prop := (0 <= d < 10)%Z.

Lemma code_dchar : forall d, dig d -> code (dchar d) = (48 + Z.to_nat d)%nat.
Proof. intros d H. unfold code, dchar, ch. apply nat_ascii_embedding. unfold dig in H. lia. Qed.
Lemma isdigit_dchar : forall d, dig d -> isdigit (dchar d) = true.
Proof.
  intros d H. unfold isdigit. rewrite code_dchar by assumption. unfold dig in H.
  apply andb_true_intro; split; apply Nat.leb_le; lia.
Qed.
Lemma isspace_dchar : forall d, dig d -> isspace (dchar d) = false.
Proof.
  intros d H. unfold isspace. rewrite code_dchar by assumption. unfold dig in H.
  apply orb_false_intro; [apply Nat.eqb_neq; lia|].
  apply andb_false_intro2. apply Nat.leb_gt. lia.
Qed.
Lemma ceq_dchar : forall d n, dig d -> (n < 48)%nat -> ceq (dchar d) (ch n) = false.
Proof.
  intros d n H Hn. unfold ceq. rewrite code_dchar by assumption. apply Nat.eqb_neq.
  unfold code, ch. rewrite nat_ascii_embedding by lia. lia.
Qed.
Lemma ceq_dchar_hi : forall d n, dig d -> (57 < n < 256)%nat -> ceq (dchar d) (ch n) = false.
Proof.
  intros d n H Hn. unfold ceq. rewrite code_dchar by assumption. apply Nat.eqb_neq.
  unfold code, ch. rewrite nat_ascii_embedding by lia. unfold dig in H. lia.
Qed.

Lemma digs_ok : forall f n, (0 <= n < 2 ^ Z.of_nat f)%Z -> (0 < f)%nat ->
  value (digs f n) = n /\ List.Forall dig (digs f n) /\ digs f n <> [].
Proof.
  assert (V : forall a l, fold_left (fun a d => (a * 10 + d)%Z) (l ++ [a]) 0%Z =
     (fold_left (fun a d => (a * 10 + d)%Z) l 0 * 10 + a)%Z) by (intros; rewrite fold_left_app; reflexivity).
  induction f as [|f IH]; intros n Hn Hf; [lia|]. simpl digs.
  destruct (Z.ltb_spec n 10) as [E|E].
  - split; [unfold value; simpl; lia|]. split; [constructor; [unfold dig; lia | constructor] | discriminate].
  - assert (P : (2 ^ Z.of_nat (S f) = 2 * 2 ^ Z.of_nat f)%Z) by (rewrite Nat2Z.inj_succ, Z.pow_succ_r by lia; reflexivity).
    assert (D : (0 <= n / 10 < 2 ^ Z.of_nat f)%Z).
    { split; [apply Z.div_pos; lia|]. apply Z.div_lt_upper_bound; [lia|]. lia. }
    assert (F : (0 < f)%nat). { destruct f; [|lia]. simpl in Hn. lia. }
    destruct (IH (n / 10)%Z D F) as [I1 [I2 _]].
    split; [|split].
    + unfold value in *. rewrite V, I1. pose proof (Z.div_mod n 10). lia.
    + apply Forall_app. split; [assumption|]. constructor; [|constructor]. unfold dig. apply Z.mod_pos_bound. lia.
    + intros K. apply app_eq_nil in K. destruct K; discriminate.
Qed.
Lemma digits_ok : forall n, (0 <= n)%Z -> value (digits n) = n /\ List.Forall dig (digits n) /\ digits n <> [].
Proof.
  intros n H. unfold digits. apply digs_ok; [|lia].
  split; [assumption|]. rewrite Nat2Z.inj_succ, Z2Nat.id by apply Z.log2_nonneg.
  destruct (Z.eq_dec n 0) as [->|Hn]; [simpl; lia|].
  apply Z.log2_spec. lia.
Qed.

Lemma take_digits_app : forall ds rest, List.Forall dig ds ->
  (match rest with [] => True | c :: _ => isdigit c = false end) ->
  take_digits (map dchar ds ++ rest) = (ds, rest).
Proof.
  induction ds as [|d r IH]; intros rest H Hr; cbn [map app take_digits].
  - destruct rest as [|c q]; [reflexivity|]. cbn [take_digits]. rewrite Hr. reflexivity.
  - inversion H as [|? ? Hd Hf]; subst. rewrite isdigit_dchar by assumption. rewrite IH by assumption.
    f_equal. f_equal. rewrite code_dchar by assumption. unfold dig in Hd. lia.
Qed.
Lemma drop_digits : forall ds rest, List.Forall dig ds -> ds <> [] ->
  dropwhile isspace (map dchar ds ++ rest) = map dchar ds ++ rest.
Proof.
  intros [|d r] rest H Hn; [congruence|]. inversion H; subst. cbn [map app dropwhile]. rewrite isspace_dchar by assumption. reflexivity.
Qed.
Lemma sign_digits : forall ds rest, List.Forall dig ds -> ds <> [] ->
  take_sign (map dchar ds ++ rest) = (false, map dchar ds ++ rest).
Proof.
  intros [|d r] rest H Hn; [congruence|]. inversion H; subst. cbn [map app take_sign].
  unfold c_minus, c_plus. rewrite !ceq_dchar by (assumption || lia). reflexivity.
Qed.

Lemma strtol_show : forall z, strtol (show_int z) = Some z.
Proof.
  intros z. unfold show_int, strtol. destruct (Z.ltb_spec z 0) as [E|E].
  - destruct (digits_ok (- z)) as [V [D N]]; [lia|].
    replace (dropwhile isspace (c_minus :: map dchar (digits (- z)))) with (c_minus :: map dchar (digits (- z))) by reflexivity.
    replace (take_sign (c_minus :: map dchar (digits (- z)))) with (true, map dchar (digits (- z))) by reflexivity.
    rewrite <- (app_nil_r (map dchar (digits (- z)))).
    rewrite take_digits_app by auto. destruct (digits (- z)) eqn:Ed; [congruence|]. rewrite V. f_equal. lia.
  - destruct (digits_ok z) as [V [D N]]; [lia|].
    rewrite <- (app_nil_r (map dchar (digits z))).
    rewrite drop_digits, sign_digits, take_digits_app by auto.
    destruct (digits z) eqn:Ed; [congruence|]. rewrite V. reflexivity.
Qed.
Lemma stoi_show : forall z, (- 2 ^ 31 <= z < 2 ^ 31)%Z -> stoi (show_int z) = Some z.
Proof.
  intros z H. unfold stoi. rewrite strtol_show.
  replace ((- 2 ^ 31 <=? z) && (z <? 2 ^ 31))%Z with true; [reflexivity|].
  symmetry. apply andb_true_intro. split; [apply Z.leb_le | apply Z.ltb_lt]; lia.
Qed.
Lemma stoul_show : forall z, (0 <= z < 2 ^ 64)%Z -> stoul (show_int z) = Some z.
Proof.
  intros z H. unfold stoul. rewrite strtol_show.
  replace (Z.abs z <? 2 ^ 64)%Z with true by (symmetry; apply Z.ltb_lt; lia).
  rewrite Z.mod_small by lia. reflexivity.
Qed.

(** ** Words *)
Definition wordy (w : text) : Prop := w <> [] /\ List.Forall (fun c => isspace c = false) w.
Lemma split_word : forall w cur rest, List.Forall (fun c => isspace c = false) w ->
  split_ws cur (w ++ rest) = split_ws (rev w ++ cur) rest.
Proof.
  induction w as [|c w IH]; intros cur rest H; [reflexivity|].
  inversion H; subst. simpl. rewrite H2. rewrite IH by assumption. simpl. rewrite <- app_assoc. reflexivity.
Qed.
Lemma split_words : forall ws rest, List.Forall wordy ws ->
  split_ws [] (flat_map (fun w => w ++ [c_space]) ws ++ rest) = ws ++ split_ws [] rest.
Proof.
  induction ws as [|w ws IH]; intros rest H; [reflexivity|].
  inversion H as [|? ? [Hn Hw] Hr]; subst. simpl. rewrite <- !app_assoc. rewrite split_word by assumption.
  rewrite app_nil_r. simpl. destruct (rev w) eqn:E.
  - exfalso. apply Hn. rewrite <- (rev_involutive w), E. reflexivity.
  - rewrite <- E, rev_involutive. f_equal. apply IH. assumption.
Qed.
Lemma split_spaces : forall s, List.Forall (fun c => isspace c = true) s -> split_ws [] s = [].
Proof. induction s as [|c s IH]; intros H; [reflexivity|]. inversion H; subst. simpl. rewrite H2. auto. Qed.
Lemma wordy_digits : forall ds, List.Forall dig ds -> ds <> [] -> wordy (map dchar ds).
Proof.
  intros ds H N. split.
  - destruct ds; [congruence | discriminate].
  - apply Forall_map. revert H. apply Forall_impl. intros d Hd. apply isspace_dchar. assumption.
Qed.
Lemma wordy_int : forall z, wordy (show_int z).
Proof.
  intros z. unfold show_int. destruct (Z.ltb_spec z 0) as [E|E].
  - destruct (digits_ok (- z)) as [_ [D N]]; [lia|]. destruct (wordy_digits _ D N) as [_ W].
    split; [discriminate|]. constructor; [reflexivity | assumption].
  - destruct (digits_ok z) as [_ [D N]]; [lia|]. apply wordy_digits; assumption.
Qed.
Lemma mapM_show : forall A B (show : A -> text) (read : text -> option B) (g : A -> B) l,
  (forall a, In a l -> read (show a) = Some (g a)) -> mapM read (map show l) = Some (map g l).
Proof.
  intros A B show read g l. induction l as [|a r IH]; intros H; [reflexivity|].
  simpl. rewrite H by (left; auto). rewrite IH; [reflexivity|]. intros; apply H; right; auto.
Qed.
(** a space-terminated list *)
Definition spaced {A} (show : A -> text) (l : list A) : text := flat_map (fun a => show a ++ [c_space]) l.
Lemma split_spaced : forall A (show : A -> text) l, (forall a, wordy (show a)) ->
  split_string (spaced show l) = map show l.
Proof.
  intros A show l H. unfold split_string, spaced.
  rewrite <- (app_nil_r (flat_map _ l)).
  replace (flat_map (fun a => show a ++ [c_space]) l) with (flat_map (fun w => w ++ [c_space]) (map show l)).
  - rewrite split_words; [rewrite app_nil_r; reflexivity|].
    apply Forall_map. apply Forall_forall. intros; apply H.
  - induction l as [|a r IH]; [reflexivity|]. simpl. rewrite IH. reflexivity.
Qed.

(** ** Doubles *)
Lemma fold_value : forall ds a, fold_left (fun a d => (a * 10 + d)%Z) ds a = (a * 10 ^ Z.of_nat (length ds) + value ds)%Z.
Proof.
  unfold value. induction ds as [|d r IH]; intros a; [simpl; lia|].
  cbn [fold_left length]. rewrite IH. rewrite (IH (0 * 10 + d)%Z).
  rewrite Nat2Z.inj_succ, Z.pow_succ_r by lia. ring.
Qed.
Lemma value_app : forall a b, value (a ++ b) = (value a * 10 ^ Z.of_nat (length b) + value b)%Z.
Proof. intros a b. unfold value at 1. rewrite fold_left_app. apply fold_value. Qed.
Lemma value_repeat0 : forall k, value (repeat 0%Z k) = 0%Z.
Proof. induction k; [reflexivity|]. unfold value in *. simpl. exact IHk. Qed.
Lemma value_cons : forall d r, value (d :: r) = (d * 10 ^ Z.of_nat (length r) + value r)%Z.
Proof. intros d r. unfold value at 1. cbn [fold_left]. rewrite fold_value. f_equal. Qed.
Lemma value_bound : forall ds, List.Forall dig ds -> (0 <= value ds < 10 ^ Z.of_nat (length ds))%Z.
Proof.
  induction ds as [|d r IH]; intros H; [simpl; unfold value; simpl; lia|].
  inversion H as [|? ? Hd Hr]; subst. rewrite value_cons. specialize (IH Hr).
  cbn [length]. rewrite Nat2Z.inj_succ, Z.pow_succ_r by lia. unfold dig in Hd. nia.
Qed.
Lemma digs_hd : forall f n, (0 < n < 2 ^ Z.of_nat f)%Z -> exists d r, digs f n = d :: r /\ (0 < d)%Z.
Proof.
  induction f as [|f IH]; intros n H; [simpl in H; lia|]. simpl.
  destruct (Z.ltb_spec n 10) as [E|E]; [exists n, []; split; [reflexivity | lia]|].
  destruct (IH (n / 10)%Z) as [d [r [D P]]].
  { split; [apply Z.div_str_pos; lia|]. apply Z.div_lt_upper_bound; [lia|].
    rewrite Nat2Z.inj_succ, Z.pow_succ_r in H by lia. lia. }
  exists d. exists (r ++ [(n mod 10)%Z]). rewrite D. split; [reflexivity | exact P].
Qed.
Lemma digits_len6 : forall m, (100000 <= m < 1000000)%Z -> length (digits m) = 6%nat.
Proof.
  intros m H. destruct (digits_ok m) as [V [D _]]; [lia|].
  destruct (digs_hd (S (Z.to_nat (Z.log2 m))) m) as [d [r [E P]]].
  { split; [lia|]. rewrite Nat2Z.inj_succ, Z2Nat.id by apply Z.log2_nonneg. apply Z.log2_spec. lia. }
  fold (digits m) in E.
  pose proof (value_bound _ D) as B. rewrite V in B.
  rewrite E in V, D. apply Forall_cons_iff in D. destruct D as [Hd Hr]. rewrite value_cons in V.
  pose proof (value_bound _ Hr) as Br. rewrite E in B |- *. cbn [length] in B |- *.
  assert (L1 : (5 <= length r)%nat).
  { destruct (Nat.le_gt_cases 5 (length r)) as [K|K]; [exact K|].
    exfalso. assert (10 ^ Z.of_nat (S (length r)) <= 10 ^ 5)%Z by (apply Z.pow_le_mono_r; lia).
    change (10 ^ 5)%Z with 100000%Z in *. lia. }
  assert (L2 : (length r <= 5)%nat).
  { destruct (Nat.le_gt_cases (length r) 5) as [K|K]; [exact K|].
    exfalso. assert (10 ^ 6 <= 10 ^ Z.of_nat (length r))%Z by (apply Z.pow_le_mono_r; lia).
    change (10 ^ 6)%Z with 1000000%Z in *. nia. }
  lia.
Qed.
Lemma strip0_spec : forall ds, exists k, ds = strip0 ds ++ repeat 0%Z k.
Proof.
  induction ds as [|d r [k IH]]; [exists 0%nat; reflexivity|]. simpl.
  destruct (strip0 r) as [|x q] eqn:E.
  - destruct (Z.eqb_spec d 0) as [->|Hd].
    + exists (S k). simpl in *. congruence.
    + exists k. simpl in *. congruence.
  - exists k. simpl in *. congruence.
Qed.
Lemma value_strip : forall ip fp e, 
  IZR (value (ip ++ strip0 fp)) * powerRZ 10 (e - Z.of_nat (length (strip0 fp))) =
  IZR (value (ip ++ fp)) * powerRZ 10 (e - Z.of_nat (length fp)).
Proof.
  intros ip fp e. destruct (strip0_spec fp) as [k E]. rewrite E at 3 4.
  rewrite app_assoc, (value_app _ (repeat 0%Z k)), value_repeat0, Z.add_0_r, app_length, !repeat_length.
  rewrite mult_IZR. rewrite Rmult_assoc. f_equal.
  assert (T : (10 <> 0)%R) by lra.
  replace (IZR (10 ^ Z.of_nat k)) with (powerRZ 10 (Z.of_nat k)).
  - rewrite <- powerRZ_add by exact T. f_equal. lia.
  - rewrite <- pow_powerRZ. rewrite <- pow_IZR. reflexivity.
Qed.
Lemma dot_not_digit : isdigit c_dot = false. Proof. reflexivity. Qed.

Definition e_tail (e : option Z) : text := match e with None => [] | Some z => c_e :: show_exp z end.
Definition e_val (e : option Z) : Z := match e with None => 0%Z | Some z => z end.
Lemma take_exp_tail : forall e, take_exp (e_tail e) = e_val e.
Proof.
  intros [z|]; [|reflexivity]. unfold e_tail, take_exp, e_val.
  replace (ceq c_e c_e || ceq c_e c_E) with true by reflexivity. unfold show_exp.
  destruct (digits_ok (Z.abs z)) as [V [D N]]; [lia|].
  set (pad := if (Z.abs z <? 10)%Z then [dchar 0] else []).
  set (dz := if (Z.abs z <? 10)%Z then 0%Z :: digits (Z.abs z) else digits (Z.abs z)).
  assert (Ep : pad ++ map dchar (digits (Z.abs z)) = map dchar dz ++ []).
  { unfold pad, dz. rewrite app_nil_r. destruct (Z.abs z <? 10)%Z; reflexivity. }
  assert (Dz : List.Forall dig dz).
  { unfold dz. destruct (Z.abs z <? 10)%Z; [constructor; [unfold dig; lia | assumption] | assumption]. }
  assert (Nz : dz <> []) by (unfold dz; destruct (Z.abs z <? 10)%Z; [discriminate | assumption]).
  assert (Vz : value dz = Z.abs z).
  { unfold dz. destruct (Z.abs z <? 10)%Z; [rewrite value_cons|]; rewrite V; lia. }
  rewrite Ep. destruct (Z.ltb_spec z 0) as [S|S].
  - replace (take_sign (c_minus :: map dchar dz ++ [])) with (true, map dchar dz ++ []) by reflexivity.
    rewrite take_digits_app by auto. destruct dz eqn:Ed; [congruence|]. rewrite Vz. lia.
  - replace (take_sign (c_plus :: map dchar dz ++ [])) with (false, map dchar dz ++ []) by reflexivity.
    rewrite take_digits_app by auto. destruct dz eqn:Ed; [congruence|]. rewrite Vz. lia.
Qed.

Lemma strip0_dig : forall ds, List.Forall dig ds -> List.Forall dig (strip0 ds).
Proof.
  intros ds H. destruct (strip0_spec ds) as [k E]. rewrite E in H. apply Forall_app in H. tauto.
Qed.
Definition unsigned_stod (s : text) : option R :=
  let (ip, s2) := take_digits s in
  let (fp, s3) := take_frac s2 in
  match ip ++ fp with
  | [] => None
  | ds => Some (IZR (value ds) * powerRZ 10 (take_exp s3 - Z.of_nat (length fp)))
  end.
Lemma unsigned_with_frac : forall ip fp e, List.Forall dig ip -> ip <> [] -> List.Forall dig fp ->
  unsigned_stod (with_frac ip fp ++ e_tail e) =
  Some (IZR (value (ip ++ fp)) * powerRZ 10 (e_val e - Z.of_nat (length fp))).
Proof.
  intros ip fp e Hi Hn Hf. unfold with_frac, unsigned_stod. rewrite <- app_assoc.
  rewrite <- value_strip.
  pose proof (strip0_dig fp Hf) as Hs.
  rewrite take_digits_app; [|assumption|].
  - destruct (strip0 fp) as [|d r] eqn:E.
    + assert (T : take_frac ([] ++ e_tail e) = ([], e_tail e)) by (destruct e; reflexivity).
      rewrite T, app_nil_r. destruct ip as [|i ir]; [congruence|]. rewrite take_exp_tail. reflexivity.
    + assert (T : take_frac ((c_dot :: map dchar (d :: r)) ++ e_tail e) = (d :: r, e_tail e)).
      { change (take_frac ((c_dot :: map dchar (d :: r)) ++ e_tail e)) with (take_digits (map dchar (d :: r) ++ e_tail e)).
        apply take_digits_app; [assumption|]. destruct e; simpl; reflexivity. }
      rewrite T. destruct ip as [|i ir]; [congruence|]. rewrite take_exp_tail. reflexivity.
  - destruct (strip0 fp) as [|d r]; [destruct e; reflexivity | reflexivity].
Qed.
Lemma render6_form : forall m e, (100000 <= m < 1000000)%Z ->
  exists ip fp t, render6 m e = with_frac ip fp ++ e_tail t /\ List.Forall dig ip /\ ip <> [] /\ List.Forall dig fp /\
    value (ip ++ fp) = m /\ (e_val t - Z.of_nat (length fp) = e - 5)%Z.
Proof.
  intros m e H. destruct (digits_ok m) as [V [D N]]; [lia|]. pose proof (digits_len6 m H) as L.
  unfold render6.
  destruct ((e <? -4) || (6 <=? e))%Z eqn:C.
  - exists (firstn 1 (digits m)), (skipn 1 (digits m)), (Some e). split; [reflexivity|].
    rewrite firstn_skipn. pose proof D as D'. rewrite <- (firstn_skipn 1 (digits m)) in D'. apply Forall_app in D'.
    split; [tauto|]. split; [destruct (digits m); [congruence | discriminate]|]. split; [tauto|].
    split; [exact V|]. rewrite skipn_length, L. simpl. lia.
  - apply orb_false_elim in C. destruct C as [C1 C2]. apply Z.ltb_ge in C1. apply Z.leb_gt in C2.
    destruct (Z.leb_spec 0 e) as [E|E].
    + exists (firstn (Z.to_nat e + 1) (digits m)), (skipn (Z.to_nat e + 1) (digits m)), None.
      split; [rewrite app_nil_r; reflexivity|].
      rewrite firstn_skipn. pose proof D as D'. rewrite <- (firstn_skipn (Z.to_nat e + 1) (digits m)) in D'. apply Forall_app in D'.
      split; [tauto|]. split; [rewrite Nat.add_1_r; destruct (digits m); [congruence | discriminate]|]. split; [tauto|].
      split; [exact V|]. rewrite skipn_length, L. simpl e_val. lia.
    + exists [0%Z], (repeat 0%Z (Z.to_nat (- e - 1)) ++ digits m), None.
      split; [rewrite app_nil_r; reflexivity|].
      split; [constructor; [unfold dig; lia | constructor]|]. split; [discriminate|].
      split; [apply Forall_app; split; [|assumption]; apply Forall_forall; intros x Hx; apply repeat_spec in Hx; subst; unfold dig; lia|].
      split.
      * rewrite value_app, value_app, value_repeat0, V. unfold value. simpl. lia.
      * rewrite app_length, repeat_length, L. simpl e_val. lia.
Qed.
Lemma stod_unsigned : forall ip fp t, List.Forall dig ip -> ip <> [] ->
  stod (with_frac ip fp ++ t) = unsigned_stod (with_frac ip fp ++ t) /\
  stod (c_minus :: with_frac ip fp ++ t) = option_map Ropp (unsigned_stod (with_frac ip fp ++ t)).
Proof.
  intros ip fp t H N. unfold with_frac. rewrite <- !app_assoc. split.
  - unfold stod, unsigned_stod. rewrite drop_digits, sign_digits by assumption.
    destruct (take_digits _) as [a s2]. destruct (take_frac s2) as [b s3]. destruct (a ++ b); reflexivity.
  - unfold stod, unsigned_stod.
    set (s := map dchar ip ++ _).
    replace (dropwhile isspace (c_minus :: s)) with (c_minus :: s) by reflexivity.
    replace (take_sign (c_minus :: s)) with (true, s) by reflexivity.
    destruct (take_digits _) as [a s2]. destruct (take_frac s2) as [b s3]. destruct (a ++ b); reflexivity.
Qed.

(** the value a saved double denotes *)
Definition round6 (x : R) : R :=
  if Req_EM_T x 0 then 0
  else if Rlt_dec x 0 then - (IZR (fst (sig6 (- x))) * powerRZ 10 (snd (sig6 (- x)) - 5))
  else IZR (fst (sig6 x)) * powerRZ 10 (snd (sig6 x) - 5).

Lemma Int_part_spec : forall r, IZR (Int_part r) <= r < IZR (Int_part r) + 1.
Proof. intros r. destruct (base_Int_part r). lra. Qed.
Lemma Int_part_eq : forall r z, IZR z <= r < IZR z + 1 -> Int_part r = z.
Proof.
  intros r z [H1 H2]. pose proof (Int_part_spec r) as [H3 H4].
  assert (IZR (Int_part r) < IZR (z + 1)) by (rewrite plus_IZR; lra).
  assert (IZR z < IZR (Int_part r + 1)) by (rewrite plus_IZR; lra).
  apply lt_IZR in H, H0. lia.
Qed.
Lemma powerRZ_pos10 : forall z, 0 < powerRZ 10 z.
Proof. intros. apply powerRZ_lt. lra. Qed.
Lemma powerRZ_Rpower : forall z, powerRZ 10 z = exp (IZR z * ln 10).
Proof. intros z. rewrite powerRZ_Rpower by lra. reflexivity. Qed.
Lemma ln10_pos : 0 < ln 10.
Proof. rewrite <- ln_1. apply ln_increasing; lra. Qed.
Lemma log10_floor : forall x, 0 < x ->
  powerRZ 10 (Int_part (log10 x)) <= x < powerRZ 10 (Int_part (log10 x) + 1).
Proof.
  intros x H. pose proof ln10_pos as L. pose proof (Int_part_spec (log10 x)) as [B1 B2].
  unfold log10 in *. set (e := Int_part (ln x / ln 10)) in *.
  rewrite !powerRZ_Rpower, plus_IZR.
  assert (E : x = exp (ln x / ln 10 * ln 10)).
  { replace (ln x / ln 10 * ln 10) with (ln x) by (field; lra). symmetry. apply exp_ln. exact H. }
  split; rewrite E at 1.
  - destruct B1 as [B1|B1].
    + left. apply exp_increasing. apply Rmult_lt_compat_r; assumption.
    + right. f_equal. f_equal. exact B1.
  - apply exp_increasing. apply Rmult_lt_compat_r; assumption.
Qed.
Lemma pow10_IZR : forall n, powerRZ 10 (Z.of_nat n) = IZR (10 ^ Z.of_nat n).
Proof. intros n. rewrite <- pow_powerRZ, <- pow_IZR. reflexivity. Qed.
Lemma sig6_spec : forall x, 0 < x ->
  let m := fst (sig6 x) in let e := snd (sig6 x) in
  (100000 <= m < 1000000)%Z /\ Rabs (IZR m * powerRZ 10 (e - 5) - x) <= x * 5 / 1000000.
Proof.
  intros x H. pose proof (log10_floor x H) as [B1 B2].
  set (e0 := Int_part (log10 x)) in *.
  set (y := x * powerRZ 10 (5 - e0)).
  pose proof (powerRZ_pos10 (5 - e0)) as P.
  assert (Y1 : 100000 <= y).
  { unfold y. replace 100000 with (powerRZ 10 e0 * powerRZ 10 (5 - e0)).
    - apply Rmult_le_compat_r; lra.
    - rewrite <- powerRZ_add by lra. replace (e0 + (5 - e0))%Z with 5%Z by lia. simpl. lra. }
  assert (Y2 : y < 1000000).
  { unfold y. replace 1000000 with (powerRZ 10 (e0 + 1) * powerRZ 10 (5 - e0)).
    - apply Rmult_lt_compat_r; lra.
    - rewrite <- powerRZ_add by lra. replace (e0 + 1 + (5 - e0))%Z with 6%Z by lia. simpl. lra. }
  assert (XY : x = y * powerRZ 10 (e0 - 5)).
  { unfold y. rewrite Rmult_assoc, <- powerRZ_add by lra. replace (5 - e0 + (e0 - 5))%Z with 0%Z by lia. simpl. ring. }
  pose proof (Int_part_spec (y + / 2)) as [M1 M2].
  set (m0 := Int_part (y + / 2)) in *.
  assert (L : (100000 <= m0)%Z).
  { assert (IZR 100000 < IZR (m0 + 1)) by (rewrite plus_IZR; lra). apply lt_IZR in H0. lia. }
  pose proof (powerRZ_pos10 (e0 - 5)) as Q.
  assert (K : Rabs (IZR m0 * powerRZ 10 (e0 - 5) - x) <= x * 5 / 1000000).
  { rewrite XY. replace (IZR m0 * powerRZ 10 (e0 - 5) - y * powerRZ 10 (e0 - 5)) with ((IZR m0 - y) * powerRZ 10 (e0 - 5)) by ring.
    rewrite Rabs_mult, (Rabs_right (powerRZ 10 (e0 - 5))) by lra.
    replace (y * powerRZ 10 (e0 - 5) * 5 / 1000000) with (y * 5 / 1000000 * powerRZ 10 (e0 - 5)) by field.
    apply Rmult_le_compat_r; [lra|]. apply Rabs_le. lra. }
  assert (Es : sig6 x = if (m0 <? 1000000)%Z then (m0, e0) else (100000%Z, (e0 + 1)%Z)) by reflexivity.
  cbv zeta. rewrite Es. destruct (Z.ltb_spec m0 1000000) as [C|C]; simpl fst; simpl snd.
  - split; [lia | exact K].
  - split; [lia|].
    assert (E : m0 = 1000000%Z).
    { assert (IZR m0 < IZR 1000001) by lra. apply lt_IZR in H0. lia. }
    replace (IZR 100000 * powerRZ 10 (e0 + 1 - 5)) with (IZR m0 * powerRZ 10 (e0 - 5)); [exact K|].
    rewrite E. replace (e0 + 1 - 5)%Z with (1 + (e0 - 5))%Z by lia. rewrite powerRZ_add by lra. simpl (powerRZ 10 1). lra.
Qed.
Lemma stod_show_double : forall x, stod (show_double x) = Some (round6 x).
Proof.
  intros x. unfold show_double, round6. destruct (Req_EM_T x 0) as [E|E].
  - change ([dchar 0]) with (with_frac [0%Z] [] ++ e_tail None).
    assert (D0 : List.Forall dig [0%Z]) by (constructor; [unfold dig; lia | constructor]).
    destruct (stod_unsigned [0%Z] [] (e_tail None) D0) as [S _]; [discriminate|]. rewrite S.
    rewrite unsigned_with_frac; [|assumption | discriminate | constructor].
    f_equal. unfold value. simpl. ring.
  - destruct (Rlt_dec x 0) as [N|N].
    + destruct (sig6_spec (- x)) as [B _]; [lra|]. destruct (sig6 (- x)) as [m e]. simpl fst in *; simpl snd in *.
      destruct (render6_form m e B) as [ip [fp [t [Er [D1 [D2 [D3 [V L]]]]]]]]. rewrite Er.
      destruct (stod_unsigned ip fp (e_tail t) D1 D2) as [_ S]. rewrite S.
      rewrite unsigned_with_frac by assumption. simpl. rewrite V, L. reflexivity.
    + destruct (sig6_spec x) as [B _]; [lra|]. destruct (sig6 x) as [m e]. simpl fst in *; simpl snd in *.
      destruct (render6_form m e B) as [ip [fp [t [Er [D1 [D2 [D3 [V L]]]]]]]]. rewrite Er.
      destruct (stod_unsigned ip fp (e_tail t) D1 D2) as [S _]. rewrite S.
      rewrite unsigned_with_frac by assumption. rewrite V, L. reflexivity.
Qed.
Lemma round6_close : forall x, Rabs (round6 x - x) <= Rabs x * 5 / 1000000.
Proof.
  intros x. unfold round6. destruct (Req_EM_T x 0) as [E|E].
  - subst. rewrite Rminus_0_r, Rabs_R0. lra.
  - destruct (Rlt_dec x 0) as [N|N].
    + destruct (sig6_spec (- x)) as [_ B]; [lra|]. rewrite (Rabs_left x) by lra.
      rewrite <- Rabs_Ropp. eapply Rle_trans; [|exact B]. right. f_equal. ring.
    + destruct (sig6_spec x) as [_ B]; [lra|]. rewrite (Rabs_right x) by lra. exact B.
Qed.
(** numbers with at most six significant digits are exact *)
Lemma sig6_exact : forall x k z, 0 < x -> x = IZR k * powerRZ 10 z -> (k < 1000000)%Z ->
  IZR (fst (sig6 x)) * powerRZ 10 (snd (sig6 x) - 5) = x.
Proof.
  intros x k z H E K. pose proof (log10_floor x H) as [B1 B2].
  set (e0 := Int_part (log10 x)) in *.
  assert (Ez : (e0 <= z + 5)%Z).
  { destruct (Z_le_gt_dec e0 (z + 5)) as [C|C]; [exact C|]. exfalso.
    assert (powerRZ 10 (z + 6) <= powerRZ 10 e0).
    { destruct (Z_of_nat_complete (e0 - z - 6)) as [j J]; [lia|].
      replace e0 with (z + 6 + Z.of_nat j)%Z by lia. rewrite (powerRZ_add 10 (z + 6) (Z.of_nat j)) by lra.
      rewrite pow10_IZR. pose proof (powerRZ_pos10 (z + 6)).
      assert (1 <= IZR (10 ^ Z.of_nat j)).
      { apply IZR_le. assert (0 < 10 ^ Z.of_nat j)%Z by (apply Z.pow_pos_nonneg; lia). lia. }
      nra. }
    rewrite powerRZ_add in H0 by lra. simpl (powerRZ 10 6) in H0.
    pose proof (powerRZ_pos10 z). assert (IZR k < IZR 1000000) by (apply IZR_lt; assumption). subst x.
    ring_simplify in H0. nra. }
  set (y := x * powerRZ 10 (5 - e0)).
  set (n := (k * 10 ^ (z + 5 - e0))%Z).
  assert (Y : y = IZR n).
  { unfold y, n. rewrite E, Rmult_assoc, <- powerRZ_add, mult_IZR by lra. f_equal.
    replace (z + (5 - e0))%Z with (Z.of_nat (Z.to_nat (z + 5 - e0))) by lia. rewrite pow10_IZR.
    rewrite Z2Nat.id by lia. reflexivity. }
  assert (Y2 : y < 1000000).
  { unfold y. replace 1000000 with (powerRZ 10 (e0 + 1) * powerRZ 10 (5 - e0)).
    - apply Rmult_lt_compat_r; [apply powerRZ_pos10 | exact B2].
    - rewrite <- powerRZ_add by lra. replace (e0 + 1 + (5 - e0))%Z with 6%Z by lia. simpl. lra. }
  assert (M : Int_part (y + / 2) = n) by (apply Int_part_eq; rewrite Y; lra).
  assert (Nb : (n < 1000000)%Z) by (apply lt_IZR; rewrite <- Y; exact Y2).
  assert (Es : sig6 x = (n, e0)).
  { unfold sig6. fold e0. fold y. rewrite M. destruct (Z.ltb_spec n 1000000); [reflexivity | lia]. }
  rewrite Es. simpl. rewrite <- Y. unfold y. rewrite Rmult_assoc, <- powerRZ_add by lra.
  replace (5 - e0 + (e0 - 5))%Z with 0%Z by lia. simpl. ring.
Qed.
Lemma round6_exact : forall k z, (Z.abs k < 1000000)%Z -> round6 (IZR k * powerRZ 10 z) = IZR k * powerRZ 10 z.
Proof.
  intros k z H. unfold round6. set (x := IZR k * powerRZ 10 z).
  destruct (Req_EM_T x 0) as [E|E]; [congruence|].
  pose proof (powerRZ_pos10 z) as P.
  destruct (Rlt_dec x 0) as [N|N].
  - rewrite (sig6_exact (- x) (- k) z); [ring | lra | unfold x; rewrite opp_IZR; ring | lia].
  - apply (sig6_exact x k z); [lra | reflexivity | lia].
Qed.
Lemma round6_form : forall x, exists k z, (Z.abs k < 1000000)%Z /\ round6 x = IZR k * powerRZ 10 z.
Proof.
  intros x. unfold round6. destruct (Req_EM_T x 0) as [E|E].
  - exists 0%Z, 0%Z. split; [lia | simpl; ring].
  - destruct (Rlt_dec x 0) as [N|N].
    + destruct (sig6_spec (- x)) as [B _]; [lra|]. exists (- fst (sig6 (- x)))%Z, (snd (sig6 (- x)) - 5)%Z.
      split; [lia|]. rewrite opp_IZR. ring.
    + destruct (sig6_spec x) as [B _]; [lra|]. exists (fst (sig6 x))%Z, (snd (sig6 x) - 5)%Z.
      split; [lia | reflexivity].
Qed.
Lemma round6_idem : forall x, round6 (round6 x) = round6 x.
Proof. intros x. destruct (round6_form x) as [k [z [B E]]]. rewrite E. apply round6_exact. exact B. Qed.
Lemma round6_1234567 : round6 1234567 <> 1234567.
Proof.
  intros H. destruct (round6_form 1234567) as [k [z [B E]]]. rewrite H in E. clear H.
  destruct (Z_le_gt_dec 1 z) as [C|C].
  - (* divisible by 10 *)
    assert (X : 1234567%Z = (k * 10 ^ z)%Z).
    { apply eq_IZR. rewrite mult_IZR. rewrite E at 1. f_equal.
      replace z with (Z.of_nat (Z.to_nat z)) by lia. apply pow10_IZR. }
    replace z with (1 + (z - 1))%Z in X by lia. rewrite Z.pow_add_r in X by lia.
    change (10 ^ 1)%Z with 10%Z in X.
    assert (1234567 mod 10 = (k * (10 * 10 ^ (z - 1))) mod 10)%Z by (rewrite <- X; reflexivity).
    replace (k * (10 * 10 ^ (z - 1)))%Z with (k * 10 ^ (z - 1) * 10)%Z in H by ring.
    rewrite Z.mod_mul in H by lia. discriminate.
  - assert (powerRZ 10 z <= 1).
    { replace 1 with (powerRZ 10 z * powerRZ 10 (Z.of_nat (Z.to_nat (- z)))).
      - rewrite pow10_IZR. pose proof (powerRZ_pos10 z).
        assert (1 <= IZR (10 ^ Z.of_nat (Z.to_nat (- z)))).
        { apply IZR_le. assert (0 < 10 ^ Z.of_nat (Z.to_nat (- z)))%Z by (apply Z.pow_pos_nonneg; lia). lia. }
        nra.
      - rewrite <- powerRZ_add by lra. replace (z + Z.of_nat (Z.to_nat (- z)))%Z with 0%Z by lia. reflexivity. }
    pose proof (powerRZ_pos10 z).
    assert (IZR k < IZR 1000000) by (apply IZR_lt; lia). nra.
Qed.
Lemma wordy_double : forall x, wordy (show_double x).
Proof.
  assert (A : forall m e, (100000 <= m < 1000000)%Z -> wordy (render6 m e)).
  { intros m e B. destruct (render6_form m e B) as [ip [fp [t [Er [D1 [D2 [D3 _]]]]]]]. rewrite Er.
    assert (Ds : forall ds, List.Forall dig ds -> List.Forall (fun c => isspace c = false) (map dchar ds)).
    { intros ds Hd. apply Forall_map. revert Hd. apply Forall_impl. intros d Hd. apply isspace_dchar. assumption. }
    unfold with_frac. split.
    - destruct ip; [congruence | discriminate].
    - apply Forall_app; split; [apply Forall_app; split|].
      + apply Ds; assumption.
      + pose proof (strip0_dig fp D3). destruct (strip0 fp); [constructor|]. constructor; [reflexivity | apply Ds; assumption].
      + destruct t as [z|]; [|constructor]. unfold e_tail, show_exp. constructor; [reflexivity|].
        constructor; [destruct (z <? 0)%Z; reflexivity|].
        apply Forall_app; split; [destruct (Z.abs z <? 10)%Z; repeat constructor|].
        apply Ds. apply digits_ok. lia. }
  intros x. unfold show_double. destruct (Req_EM_T x 0) as [E|E].
  - split; [discriminate|]. constructor; [reflexivity | constructor].
  - destruct (Rlt_dec x 0) as [N|N].
    + destruct (sig6_spec (- x)) as [B _]; [lra|]. destruct (sig6 (- x)) as [m e]. simpl in B.
      destruct (A m e B) as [_ W]. split; [discriminate|]. constructor; [reflexivity | exact W].
    + destruct (sig6_spec x) as [B _]; [lra|]. destruct (sig6 x) as [m e]. simpl in B. apply A. exact B.
Qed.
