(** Proofs about time steps, layered walls and meshes. *)
From Verif Require Import Base Diff.
From Verif Require Import SolverModel SubstepModel CreepModel NlModel UniModel BarModel BarSpec AxiModel AxiSpec GradModel GradSpec GradProofs.
From Coq Require Import ZArith List Arith Lia.
Import ListNotations.

(** ** increasing lists *)
Lemma last_cons {A} (x : A) m d : last (x :: m) d = last m x.
Proof. revert x d. induction m as [|y m IH]; intros x d; [reflexivity|]. change (last (x :: y :: m) d) with (last (y :: m) d). rewrite !IH. reflexivity. Qed.
Lemma last_app {A} (l m : list A) d : last (l ++ m) d = last m (last l d).
Proof. revert d. induction l as [|x l IH]; intros d; [reflexivity|]. cbn [app]. rewrite !last_cons. apply IH. Qed.
Lemma inc_app a l m : increasing_from a (l ++ m) <-> increasing_from a l /\ increasing_from (last l a) m.
Proof.
  revert a. induction l as [|x l IH]; intros a; [cbn; tauto|]. cbn [app increasing_from]. rewrite last_cons, IH. tauto.
Qed.
Lemma inc_affine (c d : R) a l : 0 < c -> increasing_from a l -> increasing_from (a * c + d) (map (fun x => x * c + d) l).
Proof. intros Hc. revert a. induction l as [|x l IH]; intros a H; [exact I|]. destruct H as [H1 H2]. cbn [map increasing_from]. split; [assert (a * c < x * c) by (apply Rmult_lt_compat_r; assumption); lra|apply IH, H2]. Qed.
Lemma inc_seq f a i n : a < f i -> (forall k, (i <= k < i + n - 1)%nat -> f k < f (S k)) -> increasing_from a (map f (seq i n)).
Proof.
  revert a i. induction n as [|n IH]; intros a i H0 H; [exact I|]. cbn [seq map increasing_from]. split; [exact H0|]. destruct n as [|n]; [exact I|]. apply IH; [apply H; lia|]. intros k Hk. apply H. lia.
Qed.
Lemma last_map_seq {A} (f : nat -> A) i n d : last (map f (seq i (S n))) d = f (i + n)%nat.
Proof. rewrite seq_S, map_app. cbn [map]. apply last_last. Qed.
Lemma inc_nth a l : increasing_from a l -> forall i, (i < length l)%nat -> nth i (a :: l) 0 < nth (S i) (a :: l) 0.
Proof.
  revert a. induction l as [|x l IH]; intros a H i Hi; [cbn in Hi; lia|]. destruct H as [H1 H2]. destruct i as [|i]; [exact H1|]. cbn [length] in Hi. apply (IH x H2 i). lia.
Qed.
Lemma inc_le a l x : increasing_from a l -> In x l -> a < x.
Proof. revert a. induction l as [|y l IH]; intros a H Hx; [contradiction|]. destruct H as [H1 H2]. destruct Hx as [<-|Hx]; [exact H1|]. eapply Rlt_trans; [exact H1|apply IH; assumption]. Qed.

(** ** time steps *)
Lemma lin_last t0 d n a : (1 <= n)%nat -> last (lin_from t0 d n) a = t0 + d.
Proof. intros Hn. destruct n as [|n]; [lia|]. unfold lin_from. rewrite last_map_seq. replace (1 + n)%nat with (S n) by lia. field. apply not_0_INR. lia. Qed.
Lemma lin_inc t0 d n : 0 < d -> increasing_from t0 (lin_from t0 d n).
Proof.
  intros Hd. unfold lin_from. destruct n as [|n]; [exact I|]. assert (P : 0 < INR (S n)) by (apply lt_0_INR; lia). assert (Q : 0 < d / INR (S n)) by (apply Rdiv_lt_0_compat; lra).
  apply inc_seq.
  - change (INR 1) with 1. unfold Rdiv in *. lra.
  - intros k _. rewrite (S_INR k). unfold Rdiv in *. lra.
Qed.
Lemma extend_last times d n a : (1 <= n)%nat -> last (extend times d n) a = last times 0 + d.
Proof. intros Hn. unfold extend. rewrite last_app. apply lin_last, Hn. Qed.
Lemma extend_incl times d n x : In x times -> In x (extend times d n).
Proof. intros H. apply in_or_app. left; exact H. Qed.
Lemma last_in {A} (l : list A) d : l <> [] -> In (last l d) l.
Proof. intros H. destruct (exists_last H) as (l' & x & ->). rewrite last_last. apply in_or_app. right; left; reflexivity. Qed.
(** from a list of times [ts], [ts'] reaches [d] further, keeps everything *)
Definition grows (ts ts' : list R) (d : R) : Prop :=
  ts' <> [] /\ last ts' 0 = last ts 0 + d /\ (forall x, In x ts -> In x ts') /\ hd 0 ts' = hd 0 ts.
Lemma extend_grows ts d n : ts <> [] -> (1 <= n)%nat -> grows ts (extend ts d n) d.
Proof.
  intros H Hn. split; [|split; [apply extend_last, Hn|split; [intros x; apply extend_incl|]]]. { unfold extend. destruct ts; [contradiction|discriminate]. } destruct ts; [contradiction|reflexivity].
Qed.
Lemma extend_inc t0 ts d n : 0 < d -> increasing_from t0 ts -> increasing (extend (t0 :: ts) d n).
Proof. intros Hd H. unfold extend. cbn [increasing app]. apply inc_app. split; [exact H|]. rewrite last_cons. apply lin_inc, Hd. Qed.
Lemma extend_inc' ts d n : 0 < d -> increasing ts -> ts <> [] -> increasing (extend ts d n).
Proof. intros Hd H Hn. destruct ts as [|t0 ts]; [contradiction|]. apply extend_inc; assumption. Qed.
Lemma cycle_ok h s ts : hist_ok h -> steps_ok s -> ts <> [] ->
  let ts' := one_cycle h s ts in let t := last ts 0 in
  grows ts ts' (cycle_time h) /\ In (t + heat_time h) ts' /\ In (t + heat_time h + hi_hold h) ts' /\ In (t + heat_time h + hi_hold h + cool_time h) ts' /\ (hi_T1 h <> hi_T2 h -> increasing ts -> increasing ts').
Proof.
  intros H (S1 & S2 & S3 & S4 & _) Hne ts' t. unfold ts', one_cycle. destruct H as (Hh & Hc & Hho & Hto). fold (heat_time h) (cool_time h).
  set (t1 := extend ts (heat_time h) (st_nheat s)). assert (G1 : grows ts t1 (heat_time h)) by (apply extend_grows; assumption).
  set (t2 := if Rlt_dec 0 (hi_hold h) then extend t1 (hi_hold h) (st_nhold s) else t1).
  assert (G2 : grows t1 t2 (hi_hold h)).
  { unfold t2. destruct (Rlt_dec 0 (hi_hold h)) as [P|P]; [apply extend_grows; [apply G1|assumption]|]. split; [apply G1|]. split; [lra|]. split; [auto|reflexivity]. }
  set (t3 := extend t2 (cool_time h) (st_ncool s)). assert (G3 : grows t2 t3 (cool_time h)) by (apply extend_grows; [apply G2|assumption]).
  set (t4 := if Rlt_dec 0 (hi_together h) then extend t3 (hi_together h) (st_together s) else t3).
  assert (G4 : grows t3 t4 (hi_together h)).
  { unfold t4. destruct (Rlt_dec 0 (hi_together h)) as [P|P]; [apply extend_grows; [apply G3|assumption]|]. split; [apply G3|]. split; [lra|]. split; [auto|reflexivity]. }
  assert (INC : hi_T1 h <> hi_T2 h -> increasing ts -> increasing t4).
  { intros Hd I0. assert (PA : 0 < Rabs (hi_T2 h - hi_T1 h)) by (apply Rabs_pos_lt; lra). assert (I1 : increasing t1) by (apply extend_inc'; [unfold heat_time; apply Rdiv_lt_0_compat; assumption|exact I0|exact Hne]).
    assert (I2 : increasing t2) by (unfold t2; destruct (Rlt_dec 0 (hi_hold h)) as [P|P]; [apply extend_inc'; [exact P|exact I1|apply G1]|exact I1]).
    assert (I3 : increasing t3) by (apply extend_inc'; [unfold cool_time; apply Rdiv_lt_0_compat; assumption|exact I2|apply G2]).
    unfold t4; destruct (Rlt_dec 0 (hi_together h)) as [P|P]; [apply extend_inc'; [exact P|exact I3|apply G3]|exact I3]. }
  clearbody t4 t3 t2 t1. destruct G1 as (A1 & A2 & A3 & A4), G2 as (B1 & B2 & B3 & B4), G3 as (C1 & C2 & C3 & C4), G4 as (D1 & D2 & D3 & D4).
  split; [split; [exact D1|split; [rewrite D2, C2, B2, A2; unfold cycle_time; ring|split; [auto|congruence]]]|].
  unfold t. rewrite <- A2. split; [apply D3, C3, B3, last_in, A1|]. rewrite <- B2. split; [apply D3, C3, last_in, B1|]. rewrite <- C2. split; [apply D3, last_in, C1|]. exact INC.
Qed.
Lemma cycles_ok h s n : hist_ok h -> steps_ok s -> forall ts, ts <> [] ->
  let ts' := cycles n h s ts in let t := last ts 0 in
  grows ts ts' (INR n * cycle_time h) /\
  (forall i, (i < n)%nat -> let u := t + INR i * cycle_time h in In u ts' /\ In (u + heat_time h) ts' /\ In (u + heat_time h + hi_hold h) ts' /\ In (u + heat_time h + hi_hold h + cool_time h) ts' /\ In (u + cycle_time h) ts') /\
  (hi_T1 h <> hi_T2 h -> increasing ts -> increasing ts').
Proof.
  intros H Hs. induction n as [|n IH]; intros ts Hne; cbv zeta.
  - cbn [cycles INR]. split; [split; [exact Hne|split; [ring|split; [auto|reflexivity]]]|]. split; [intros i Hi; lia|auto].
  - cbn [cycles]. destruct (cycle_ok h s ts H Hs Hne) as ((N1 & L1 & I1 & D1) & K1 & K2 & K3 & Inc1). set (ts1 := one_cycle h s ts) in *. destruct (IH ts1 N1) as ((N2 & L2 & I2 & D2) & K & Inc2). set (ts2 := cycles n h s ts1) in *.
    split; [split; [exact N2|split; [rewrite L2, L1, S_INR; ring|split; [auto|congruence]]]|]. split; [|auto].
    intros i Hi. destruct i as [|i].
    + cbn [INR]. rewrite Rmult_0_l, Rplus_0_r. split; [apply I2, I1, last_in, Hne|]. split; [apply I2, K1|]. split; [apply I2, K2|]. split; [apply I2, K3|]. rewrite <- L1. apply I2, last_in, N1.
    + replace (last ts 0 + INR (S i) * cycle_time h) with (last ts1 0 + INR i * cycle_time h) by (rewrite L1, S_INR; ring). apply K. lia.
Qed.
(** starts at 0, ends with the last cycle, strictly increasing, stops at every corner of every cycle *)
Lemma timesteps_ok h s n : hist_ok h -> steps_ok s -> 0 <= hi_delay h -> let ts := timesteps h s n in
  hd 0 ts = 0 /\ last ts 0 = hi_delay h + INR n * cycle_time h /\ In (hi_delay h) ts /\ (forall i, (i < n)%nat -> Forall (fun c => In c ts) (corners h i)) /\ (hi_T1 h <> hi_T2 h -> increasing ts).
Proof.
  intros H Hs Hd ts. unfold ts, timesteps. set (t0 := if Rlt_dec 0 (hi_delay h) then _ else _). assert (Q : t0 <> [] /\ last t0 0 = hi_delay h /\ hd 0 t0 = 0 /\ increasing t0).
  { unfold t0. destruct (Rlt_dec 0 (hi_delay h)) as [P|P].
    - destruct (extend_grows [0] (hi_delay h) (st_ndelay s)) as (A & B & _ & D); [discriminate|apply Hs|]. split; [exact A|]. split; [rewrite B; cbn [last]; ring|]. split; [exact D|]. apply extend_inc; [exact P|exact I].
    - split; [discriminate|]. split; [cbn [last]; lra|]. split; [reflexivity|exact I]. }
  destruct Q as (Q1 & Q2 & Q3 & Q4). destruct (cycles_ok h s n H Hs t0 Q1) as ((A & B & C & D) & K & Inc). rewrite Q2 in *. split; [rewrite D; exact Q3|]. split; [exact B|]. split; [apply C; rewrite <- Q2; apply last_in, Q1|]. split; [|auto].
  intros i Hi. destruct (K i Hi) as (K1 & K2 & K3 & K4 & K5). unfold corners. repeat (constructor; [assumption|]). constructor.
Qed.

(** ** layers *)
Lemma resist_len rs ks : length rs = S (length ks) -> length (resist rs ks) = length ks.
Proof. revert rs. induction ks as [|k ks IH]; intros rs H; destruct rs as [|r [|r' rs]]; cbn in H |- *; try lia. f_equal. apply (IH (r' :: rs)). cbn. lia. Qed.
Lemma resist_nth rs ks i : length rs = S (length ks) -> (i < length ks)%nat -> nth i (resist rs ks) 0 = (nth (S i) rs 0 - nth i rs 0) / nth i ks 0.
Proof.
  revert rs i. induction ks as [|k ks IH]; intros rs i H Hi; [cbn in Hi; lia|]. destruct rs as [|r [|r' rs]]; cbn in H; try lia. destruct i as [|i]; [reflexivity|]. change (nth (S i) (resist (r :: r' :: rs) (k :: ks)) 0) with (nth i (resist (r' :: rs) ks) 0).
  rewrite IH; [reflexivity|cbn; lia|cbn in Hi; lia].
Qed.
Lemma cums_len c l : length (cums c l) = S (length l).
Proof. revert c. induction l; intros c; cbn; [reflexivity|]. f_equal. apply IHl. Qed.
Lemma cums_step c l i : (i < length l)%nat -> nth (S i) (cums c l) 0 = nth i (cums c l) 0 + nth i l 0.
Proof.
  revert c i. induction l as [|x l IH]; intros c i Hi; [cbn in Hi; lia|]. destruct i as [|i]; [destruct l; reflexivity|]. cbn [length] in Hi. change (nth (S (S i)) (cums c (x :: l)) 0) with (nth (S i) (cums (c + x) l) 0). change (nth (S i) (cums c (x :: l)) 0) with (nth i (cums (c + x) l) 0). apply IH. lia.
Qed.
Lemma cums_first c l : nth 0 (cums c l) 0 = c.
Proof. destruct l; reflexivity. Qed.
Lemma cums_last c l : nth (length l) (cums c l) 0 = c + total l.
Proof. revert c. induction l as [|x l IH]; intros c; [cbn; ring|]. cbn [length]. change (nth (S (length l)) (cums c (x :: l)) 0) with (nth (length l) (cums (c + x) l) 0). rewrite IH. change (total (x :: l)) with (x + total l). ring. Qed.
Lemma cums_le l : Forall (fun x => 0 <= x) l -> forall c i, (i <= length l)%nat -> c <= nth i (cums c l) 0 <= c + total l.
Proof.
  intros H. induction H as [|x l Hx H IH]; intros c i Hi; [assert (i = 0%nat) by (cbn in Hi; lia); subst; cbn; lra|]. assert (T : 0 <= total l). { specialize (IH 0 0%nat ltac:(lia)). rewrite cums_first in IH. lra. }
  destruct i as [|i]; [rewrite cums_first; change (total (x :: l)) with (x + total l); lra|]. change (nth (S i) (cums c (x :: l)) 0) with (nth i (cums (c + x) l) 0). cbn [length] in Hi. specialize (IH (c + x) i ltac:(lia)). change (total (x :: l)) with (x + total l). lra.
Qed.
(** np.interp: linear in every segment, through the given points *)
Lemma interp_seg xp fp i x : length fp = length xp -> increasing xp -> (S i < length xp)%nat -> nth i xp 0 <= x <= nth (S i) xp 0 ->
  interp xp fp x = nth i fp 0 + (x - nth i xp 0) * (nth (S i) fp 0 - nth i fp 0) / (nth (S i) xp 0 - nth i xp 0).
Proof.
  revert xp fp. induction i as [|i IH]; intros xp fp HL HI Hi Hx; destruct xp as [|a [|b xp]]; cbn in Hi; try lia; destruct fp as [|f [|g fp]]; cbn in HL; try lia.
  - cbn [nth] in *. cbn in HI. destruct HI as [HI1 HI2]. cbn [interp]. destruct (Rlt_dec x a); [lra|]. destruct (Rlt_dec x b); [reflexivity|]. assert (x = b) by lra. subst x. replace (f + (b - a) * (g - f) / (b - a)) with g by (field; lra).
    destruct xp as [|c xp], fp as [|f' fp]; cbn in HL; try lia; [reflexivity|]. destruct HI2 as [HI2 _]. destruct (Rlt_dec b b); [lra|]. destruct (Rlt_dec b c); [field; lra|lra].
  - change (nth (S i) (a :: b :: xp) 0) with (nth i (b :: xp) 0) in *. change (nth (S (S i)) (a :: b :: xp) 0) with (nth (S i) (b :: xp) 0) in *. change (nth (S i) (f :: g :: fp) 0) with (nth i (g :: fp) 0). change (nth (S (S i)) (f :: g :: fp) 0) with (nth (S i) (g :: fp) 0).
    destruct HI as [HI1 HI2].
    assert (B : b <= nth i (b :: xp) 0). { destruct i as [|i]; [cbn; lra|]. apply Rlt_le. eapply inc_le; [exact HI2|]. cbn [nth]. apply nth_In. cbn in Hi. lia. }
    rewrite <- (IH (b :: xp) (g :: fp)); [|cbn in *; lia|exact HI2|cbn; lia|exact Hx]. cbn [interp]. destruct (Rlt_dec x a); [lra|]. destruct (Rlt_dec x b); [lra|reflexivity].
Qed.
Lemma knot_step rs ks i : knots rs ks -> (i < length ks)%nat -> nth i rs 0 < nth (S i) rs 0 /\ 0 < nth i ks 0.
Proof.
  intros (L & I & P & _) Hi. destruct rs as [|a rs]; [cbn in L; lia|]. split; [apply inc_nth; [exact I|cbn in L; lia]|]. rewrite Forall_forall in P. apply P, nth_In, Hi.
Qed.
Lemma resist_pos rs ks : knots rs ks -> Forall (fun x => 0 < x) (resist rs ks).
Proof.
  intros K. apply Forall_forall. intros x Hx. destruct (In_nth _ _ 0 Hx) as (i & Hi & <-). rewrite resist_len in Hi by apply K. rewrite resist_nth by (try apply K; exact Hi). destruct (knot_step rs ks i K Hi). apply Rdiv_lt_0_compat; lra.
Qed.
Lemma total_pos l : l <> [] -> Forall (fun x => 0 < x) l -> 0 < total l.
Proof.
  intros Hn H. destruct H as [|x l Hx H]; [contradiction|]. assert (0 <= total l) by (clear - H; induction H; [cbn; lra|change (total (x :: l)) with (x + total l); lra]). change (total (x :: l)) with (x + total l). lra.
Qed.
Lemma rt_pos rs ks : knots rs ks -> 0 < total (resist rs ks).
Proof. intros K. apply total_pos; [|apply resist_pos, K]. intros E. assert (Q := resist_len rs ks (proj1 K)). rewrite E in Q. destruct K as (_ & _ & _ & K). cbn in Q. lia. Qed.
Definition node_temp (rs ks : list R) (h : hist) (flip : bool) (t : R) (i : nat) : R :=
  let c := nth i (cums 0 (resist rs ks)) 0 / total (resist rs ks) in hi_T1 h + (if flip then 1 - c else c) * (outer h t - hi_T1 h).
Lemma multi_seg rs ks h flip i r t : knots rs ks -> (i < length ks)%nat -> nth i rs 0 <= r <= nth (S i) rs 0 ->
  multi rs ks h flip r t = Some (node_temp rs ks h flip t i + (r - nth i rs 0) * (node_temp rs ks h flip t (S i) - node_temp rs ks h flip t i) / (nth (S i) rs 0 - nth i rs 0)).
Proof.
  intros K Hi Hr. unfold multi, node_temp, outer. rewrite (proj1 K), Nat.add_1_r, Nat.eqb_refl. destruct (knot_step rs ks i K Hi) as [Q _]. destruct (Rlt_dec t (hi_delay h)); [f_equal; rewrite !Rminus_diag_eq with (r1 := hi_T1 h) by reflexivity; field; lra|]. cbv zeta. f_equal.
  set (Rt := total (resist rs ks)). set (F := fun c => hi_T1 h + (if flip then 1 - c / Rt else c / Rt) * (right_at h t - hi_T1 h)).
  rewrite (interp_seg rs (map F (cums 0 (resist rs ks))) i r).
  - assert (E : forall j, (j <= length ks)%nat -> nth j (map F (cums 0 (resist rs ks))) 0 = F (nth j (cums 0 (resist rs ks)) 0)).
    { intros j Hj. rewrite (nth_indep _ 0 (F 0)) by (rewrite map_length, cums_len, resist_len by apply K; lia). apply map_nth. }
    rewrite !E by lia. reflexivity.
  - rewrite map_length, cums_len, resist_len by apply K. symmetry. apply K.
  - apply K.
  - rewrite (proj1 K). lia.
  - exact Hr.
Qed.
Lemma multi_knot rs ks h flip i t : knots rs ks -> (i <= length ks)%nat -> multi rs ks h flip (nth i rs 0) t = Some (node_temp rs ks h flip t i).
Proof.
  intros K Hi. assert (K4 := proj2 (proj2 (proj2 K))). destruct (Nat.eq_dec i (length ks)) as [E|E].
  - destruct i as [|j]; [lia|]. destruct (knot_step rs ks j K ltac:(lia)) as [Q _]. rewrite (multi_seg rs ks h flip j) by (try exact K; try lia; lra). f_equal. field. lra.
  - destruct (knot_step rs ks i K ltac:(lia)) as [Q _]. rewrite (multi_seg rs ks h flip i) by (try exact K; try lia; lra). f_equal. field. lra.
Qed.
(** the same heat flux through every layer, the given temperatures at the two surfaces *)
Lemma multi_flux rs ks h flip t : knots rs ks -> exists q, forall i r r', (i < length ks)%nat -> nth i rs 0 <= r <= nth (S i) rs 0 -> nth i rs 0 <= r' <= nth (S i) rs 0 ->
  exists a b, multi rs ks h flip r t = Some a /\ multi rs ks h flip r' t = Some b /\ nth i ks 0 * (b - a) = q * (r' - r).
Proof.
  intros K. exists ((if flip then -1 else 1) * (outer h t - hi_T1 h) / total (resist rs ks)). intros i r r' Hi Hr Hr'. destruct (knot_step rs ks i K Hi) as [Q1 Q2]. assert (P := rt_pos rs ks K).
  eexists. eexists. split; [apply (multi_seg rs ks h flip i r t K Hi Hr)|]. split; [apply (multi_seg rs ks h flip i r' t K Hi Hr')|]. unfold node_temp.
  rewrite cums_step by (rewrite resist_len by apply K; exact Hi). rewrite resist_nth by (try apply K; exact Hi). destruct flip; field; lra.
Qed.
Lemma multi_ends rs ks h t : knots rs ks ->
  multi rs ks h false (nth 0 rs 0) t = Some (hi_T1 h) /\ multi rs ks h false (nth (length ks) rs 0) t = Some (outer h t) /\
  multi rs ks h true (nth 0 rs 0) t = Some (outer h t) /\ multi rs ks h true (nth (length ks) rs 0) t = Some (hi_T1 h).
Proof.
  intros K. assert (P := rt_pos rs ks K). assert (L := resist_len rs ks (proj1 K)). rewrite !multi_knot by (try exact K; lia). unfold node_temp. rewrite cums_first. rewrite <- L at 1 2. rewrite cums_last.
  split; [|split; [|split]]; f_equal; field; lra.
Qed.
Lemma multi_range rs ks h flip i r t : hist_ok h -> knots rs ks -> (i < length ks)%nat -> nth i rs 0 <= r <= nth (S i) rs 0 -> exists a, multi rs ks h flip r t = Some a /\ within (hi_T1 h) (hi_T2 h) a.
Proof.
  intros H K Hi Hr. eexists. split; [apply (multi_seg rs ks h flip i r t K Hi Hr)|]. destruct (knot_step rs ks i K Hi) as [Q1 _]. assert (P := rt_pos rs ks K).
  assert (F := frac_range _ _ r Q1 Hr). set (f := (r - nth i rs 0) / (nth (S i) rs 0 - nth i rs 0)) in *.
  assert (RL : Forall (fun x => 0 <= x) (resist rs ks)) by (eapply Forall_impl; [|apply resist_pos, K]; intros; cbv beta in *; lra). assert (L := resist_len rs ks (proj1 K)).
  assert (C : forall j, (j <= length ks)%nat -> 0 <= nth j (cums 0 (resist rs ks)) 0 / total (resist rs ks) <= 1).
  { intros j Hj. assert (Q := cums_le _ RL 0 j ltac:(lia)). split; [apply Rmult_le_pos; [lra|apply Rlt_le, Rinv_0_lt_compat, P]|]. apply Rmult_le_reg_r with (total (resist rs ks)); [exact P|]. unfold Rdiv. rewrite Rmult_assoc, Rinv_l by lra. lra. }
  assert (C0 := C i ltac:(lia)). assert (C1 := C (S i) ltac:(lia)). unfold node_temp. set (c0 := nth i _ 0 / _) in *. set (c1 := nth (S i) (cums _ _) 0 / _) in *. set (g0 := if flip then 1 - c0 else c0). set (g1 := if flip then 1 - c1 else c1). assert (G0 : 0 <= g0 <= 1) by (unfold g0; destruct flip; lra). assert (G1 : 0 <= g1 <= 1) by (unfold g1; destruct flip; lra).
  replace (_ + _) with (hi_T1 h + (g0 + f * (g1 - g0)) * (outer h t - hi_T1 h)) by (unfold f, Rdiv; ring). apply within_mix; [apply outer_range, H|].
  assert (0 <= f * g1) by (apply Rmult_le_pos; lra). assert (0 <= (1 - f) * g0) by (apply Rmult_le_pos; lra). assert (0 <= f * (1 - g1)) by (apply Rmult_le_pos; lra). assert (0 <= (1 - f) * (1 - g0)) by (apply Rmult_le_pos; lra). lra.
Qed.
(** one layer: the plain gradient *)
Lemma multi_single ri ro k h r t : ri < ro -> 0 < k -> ri <= r <= ro -> multi [ri; ro] [k] h false r t = Some (gradient ri ro h r t).
Proof.
  intros Hr Hk Hi. assert (K : knots [ri; ro] [k]) by (split; [reflexivity|split; [split; [exact Hr|exact I]|split; [repeat constructor; exact Hk|cbn; lia]]]).
  rewrite (multi_seg [ri; ro] [k] h false 0 r t K) by (cbn; try lia; lra). f_equal. rewrite gradient_outer by exact Hr. unfold node_temp. cbn. field. lra.
Qed.

(** ** meshes *)
Lemma even_ok n : (1 <= n)%nat -> part_ok (even_part n) n.
Proof.
  intros Hn. assert (P : 0 < INR n) by (apply lt_0_INR; lia). split; [|split].
  - unfold even_part. apply inc_seq; [change (INR 1) with 1; apply Rdiv_lt_0_compat; lra|]. intros k _. rewrite S_INR. apply Rmult_lt_compat_r; [apply Rinv_0_lt_compat, P|lra].
  - unfold even_part. destruct n as [|n]; [lia|]. rewrite last_map_seq. replace (1 + n)%nat with (S n) by lia. field. lra.
  - unfold even_part. rewrite map_length, seq_length. reflexivity.
Qed.
Lemma pw_0 b : pw 0 b = 0.
Proof. unfold pw. destruct (Req_EM_T 0 0); [reflexivity|lra]. Qed.
Lemma pw_1 b : pw 1 b = 1.
Proof. unfold pw. destruct (Req_EM_T 1 0); [lra|]. unfold Rpower. rewrite ln_1, Rmult_0_r, exp_0. reflexivity. Qed.
Lemma pw_lt x y b : 0 < b -> 0 <= x < y -> pw x b < pw y b.
Proof.
  intros Hb H. unfold pw. destruct (Req_EM_T y 0); [lra|]. destruct (Req_EM_T x 0); [unfold Rpower; apply exp_pos|]. unfold Rpower. apply exp_increasing. apply Rmult_lt_compat_l; [exact Hb|]. apply ln_increasing; lra.
Qed.
Lemma frac_lt k m : (0 < m)%nat -> INR k / INR m < INR (S k) / INR m.
Proof. intros Hm. apply Rmult_lt_compat_r; [apply Rinv_0_lt_compat, lt_0_INR, Hm|]. rewrite S_INR. lra. Qed.
Lemma frac_pos k m : (0 < m)%nat -> 0 <= INR k / INR m.
Proof. intros Hm. apply Rmult_le_pos; [apply pos_INR|apply Rlt_le, Rinv_0_lt_compat, lt_0_INR, Hm]. Qed.
Definition half (n : nat) : nat := if Nat.even n then (n / 2)%nat else ((n + 1) / 2)%nat.
Lemma half_eq n : (1 <= n)%nat -> (1 <= half n)%nat /\ (if Nat.even n then n = half n + half n else n + 1 = half n + half n)%nat.
Proof.
  intros Hn. unfold half. destruct (Nat.even n) eqn:E.
  - apply Nat.even_spec in E. destruct E as (m & ->). rewrite Nat.mul_comm, Nat.div_mul by lia. lia.
  - assert (O : Nat.odd n = true) by (rewrite <- Nat.negb_even, E; reflexivity). apply Nat.odd_spec in O. destruct O as (m & ->). replace (2 * m + 1 + 1)%nat with ((m + 1) * 2)%nat by lia. rewrite Nat.div_mul by lia. lia.
Qed.
Lemma bias_ok b n : 0 < b -> (1 <= n)%nat -> part_ok (bias_part b n) n.
Proof.
  intros Hb Hn. destruct (half_eq n Hn) as [H1 H2]. unfold bias_part. fold (half n). cbv zeta. set (m := half n) in *. set (m1 := if Nat.even n then m else (m - 1)%nat).
  assert (Em : (m1 <= m)%nat /\ n = (m1 + m)%nat /\ (m <= m1 + 1)%nat) by (unfold m1; destruct (Nat.even n); lia). clearbody m1. clear H2. destruct Em as (Em1 & Em2 & Em3).
  assert (L1 : last (map (fun k => pw (INR k / INR m) b / 2) (seq 1 m1)) 0 = pw (INR m1 / INR m) b / 2).
  { destruct m1 as [|m1]; [cbn [seq map last INR]; unfold Rdiv; rewrite Rmult_0_l, pw_0; ring|]. rewrite last_map_seq. replace (1 + m1)%nat with (S m1) by lia. reflexivity. }
  assert (M0 : INR m <> 0) by (apply not_0_INR; lia).
  split; [|split].
  - apply inc_app. split.
    + apply inc_seq; [|intros k Hk; assert (Q := pw_lt _ _ b Hb (conj (frac_pos k m ltac:(lia)) (frac_lt k m ltac:(lia)))); lra].
      assert (Q := pw_lt _ _ b Hb (conj (frac_pos 0 m ltac:(lia)) (frac_lt 0 m ltac:(lia)))). replace (INR 0 / INR m) with 0 in Q by (cbn [INR]; field; exact M0). rewrite pw_0 in Q. lra.
    + rewrite L1. apply inc_seq.
      * destruct (Nat.eq_dec m1 m) as [->|N].
        { assert (Q := pw_lt _ _ b Hb (conj (frac_pos (m - 1) m ltac:(lia)) (frac_lt (m - 1) m ltac:(lia)))). replace (S (m - 1)) with m in Q by lia. assert (E : INR m / INR m = 1) by (field; exact M0). rewrite E, pw_1 in *. lra. }
        { assert (m1 = m - 1)%nat by lia. subst m1. assert (Q := pw_lt _ _ b Hb (conj (frac_pos (m - 1) m ltac:(lia)) (frac_lt (m - 1) m ltac:(lia)))). replace (S (m - 1)) with m in Q by lia. assert (E : INR m / INR m = 1) by (field; exact M0). rewrite E, pw_1 in Q. lra. }
      * intros k Hk. replace (m - k)%nat with (S (m - S k)) by lia. assert (Q := pw_lt _ _ b Hb (conj (frac_pos (m - S k) m ltac:(lia)) (frac_lt (m - S k) m ltac:(lia)))). lra.
  - rewrite last_app. destruct m as [|m']; [lia|]. rewrite last_map_seq. replace (S m' - (1 + m'))%nat with 0%nat by lia. replace (INR 0 / INR (S m')) with 0 by (change (INR 0) with 0; field; exact M0). rewrite pw_0. field.
  - rewrite app_length, !map_length, !seq_length. lia.
Qed.
(** mirror symmetry of a biased segment, and nodes closer to its ends than the even ones *)
Lemma nth_map_seq f n k : (k < n)%nat -> nth k (map f (seq 1 n)) 0 = f (S k).
Proof. intros H. rewrite (nth_indep _ 0 (f 0%nat)) by (rewrite map_length, seq_length; exact H). rewrite map_nth, seq_nth by exact H. reflexivity. Qed.
Lemma bias_nth b n k : (1 <= n)%nat -> (k <= n)%nat -> nth k (0 :: bias_part b n) 0 = if (k + k <=? n)%nat then pw (INR k / INR (half n)) b / 2 else 1 - pw (INR (n - k) / INR (half n)) b / 2.
Proof.
  intros Hn Hk. destruct (half_eq n Hn) as [H1 H2]. unfold bias_part. fold (half n). cbv zeta. set (m := half n) in *. set (m1 := if Nat.even n then m else (m - 1)%nat).
  assert (Em : (m1 <= m)%nat /\ n = (m1 + m)%nat /\ (m <= m1 + 1)%nat) by (unfold m1; destruct (Nat.even n); lia). clearbody m1. clear H2. destruct Em as (Em1 & Em2 & Em3).
  destruct k as [|k]; [cbn [nth Nat.add Nat.leb INR]; unfold Rdiv; rewrite Rmult_0_l, pw_0; ring|]. cbn [nth]. destruct (Nat.leb_spec (S k + S k) n).
  - rewrite app_nth1 by (rewrite map_length, seq_length; lia). rewrite nth_map_seq by lia. reflexivity.
  - rewrite app_nth2; rewrite map_length, seq_length; [|lia]. rewrite nth_map_seq by lia. replace (m - S (k - m1))%nat with (n - S k)%nat by lia. field.
    Unshelve. all: apply not_0_INR; lia.
Qed.
Lemma bias_mirror b n k : 0 < b -> (1 <= n)%nat -> (k <= n)%nat -> nth k (0 :: bias_part b n) 0 + nth (n - k) (0 :: bias_part b n) 0 = 1.
Proof.
  intros Hb Hn Hk. rewrite !bias_nth by lia. destruct (Nat.leb_spec (k + k) n), (Nat.leb_spec (n - k + (n - k)) n).
  - assert (n - k = k)%nat by lia. rewrite H1. destruct (half_eq n Hn) as [H2 H3]. destruct (Nat.even n) eqn:E; [|exfalso; assert (Nat.odd n = true) by (rewrite <- Nat.negb_even, E; reflexivity); apply Nat.odd_spec in H4; destruct H4; lia].
    assert (k = half n) by lia. rewrite H4. replace (INR (half n) / INR (half n)) with 1 by (field; apply not_0_INR; lia). rewrite pw_1. field.
  - replace (n - (n - k))%nat with k by lia. ring.
  - replace (n - k)%nat with (n - k)%nat by lia. ring.
  - exfalso. lia.
Qed.
Lemma pw_below x b : 1 <= b -> 0 <= x <= 1 -> pw x b <= x.
Proof.
  intros Hb H. unfold pw. destruct (Req_EM_T x 0); [lra|]. unfold Rpower. rewrite <- (exp_ln x) at 2 by lra. assert (L : ln x <= 0) by (rewrite <- ln_1; destruct (proj2 H) as [Q| ->]; [left; apply ln_increasing; lra|right; reflexivity]).
  assert (b * ln x <= ln x) by (assert (0 <= (b - 1) * - ln x) by (apply Rmult_le_pos; lra); lra). destruct H0 as [Q|Q]; [left; apply exp_increasing, Q|right; rewrite Q; reflexivity].
Qed.
Lemma bias_ends b n k : 1 <= b -> (1 <= n)%nat -> (k + k <= n)%nat -> nth k (0 :: bias_part b n) 0 <= INR k / INR n.
Proof.
  intros Hb Hn Hk. rewrite bias_nth by lia. rewrite (proj2 (Nat.leb_le _ _) Hk). destruct (half_eq n Hn) as [H1 H2]. assert (Q : (n <= half n + half n /\ k <= half n)%nat) by (destruct (Nat.even n); lia). destruct Q as [Q1 Q2].
  assert (M : 0 < INR (half n)) by (apply lt_0_INR; lia). assert (N : 0 < INR n) by (apply lt_0_INR; lia). apply le_INR in Q1, Q2. rewrite plus_INR in Q1. assert (K := pos_INR k).
  assert (F : 0 <= INR k / INR (half n) <= 1) by (split; [apply frac_pos; lia|apply Rmult_le_reg_r with (INR (half n)); [exact M|]; unfold Rdiv; rewrite Rmult_assoc, Rinv_l by lra; lra]).
  apply Rle_trans with (INR k / INR (half n) / 2); [assert (Q := pw_below _ b Hb F); lra|]. replace (INR k / INR (half n) / 2) with (INR k * / (2 * INR (half n))) by (field; lra). apply Rmult_le_compat_l; [exact K|]. apply Rinv_le_contravar; lra.
Qed.
(** the mesh of all the segments *)
Lemma mesh_ok part rs ns : (forall n, (1 <= n)%nat -> part_ok (part n) n) -> segments rs ns ->
  increasing (mesh part rs ns) /\ hd 0 (mesh part rs ns) = hd 0 rs /\ last (mesh part rs ns) 0 = last rs 0 /\ length (mesh part rs ns) = S (list_sum ns) /\ (forall r, In r rs -> In r (mesh part rs ns)).
Proof.
  intros HP. revert rs. induction ns as [|n ns IH]; intros rs (HL & HI & HN); destruct rs as [|a rs]; cbn in HL; try lia.
  - destruct rs as [|b rs]; cbn in HL; try lia. cbn. repeat split; try reflexivity. auto.
  - destruct rs as [|b rs]; cbn in HL; try lia. inversion HN as [|? ? HN1 HN2]; subst. destruct HI as [HI1 HI2]. destruct (IH (b :: rs)) as (A & B & C & D & E); [split; [cbn; lia|split; [exact HI2|exact HN2]]|]. destruct (HP n HN1) as (P1 & P2 & P3).
    cbn [mesh hd] in *. change (mesh_from part (a :: b :: rs) (n :: ns)) with (map (fun x => x * (b - a) + a) (part n) ++ mesh_from part (b :: rs) ns). set (S1 := map (fun x => x * (b - a) + a) (part n)).
    assert (N1 : part n <> []) by (intros Q; rewrite Q in P3; cbn in P3; lia).
    assert (LS : forall d, last S1 d = b). { intros d. unfold S1. destruct (exists_last N1) as (l & x & Ex). rewrite Ex in *. rewrite map_app. cbn [map]. rewrite last_last in *. subst x. ring. }
    assert (IS : In b S1). { rewrite <- (LS 0). apply last_in. unfold S1. destruct (part n); [contradiction|discriminate]. }
    split; [|split; [reflexivity|split; [|split]]].
    + cbn [increasing]. apply inc_app. split; [|rewrite LS; exact A]. unfold S1. replace a with (0 * (b - a) + a) at 1 by ring. apply inc_affine; [lra|exact P1].
    + rewrite last_cons, last_app, LS, !last_cons. rewrite last_cons in C. rewrite C, last_cons. reflexivity.
    + cbn [length list_sum fold_right] in *. fold (list_sum ns). rewrite app_length. unfold S1. rewrite map_length, P3. lia.
    + intros r [<-|Hr]; [left; reflexivity|]. right. apply in_or_app. destruct (E r Hr) as [<-|Q]; [left; exact IS|right; exact Q].
Qed.

Lemma make_wall part rule rs mats ns dflt T p pext con : (forall n, (1 <= n)%nat -> part_ok (part n) n) -> segments rs ns -> ns <> [] -> 0 < hd 0 rs -> Forall (fun g => -1 <= fst g <= 1) rule -> sum_over rule snd = 2 ->
  wall (axi_make part rule rs mats ns dflt T p pext con) /\ ax_ne (axi_make part rule rs mats ns dflt T p pext con) = list_sum ns /\ (forall r, In r rs -> exists k, (k <= list_sum ns)%nat /\ ax_mesh (axi_make part rule rs mats ns dflt T p pext con) k = r).
Proof.
  intros HP HS Hn H0 HR1 HR2. destruct (mesh_ok part rs ns HP HS) as (A & B & C & D & E). destruct HS as (S1 & S2 & S3). assert (NP : (1 <= list_sum ns)%nat) by (destruct ns as [|n ns]; [contradiction|inversion S3; subst; change (list_sum (n :: ns)) with (n + list_sum ns)%nat; lia]).
  assert (NE : ax_ne (axi_make part rule rs mats ns dflt T p pext con) = list_sum ns) by (cbn [axi_make ax_ne]; rewrite D; lia). split; [|split; [exact NE|]].
  - unfold wall. rewrite NE. cbn [axi_make ax_mesh ax_ri ax_ro ax_t ax_gp]. destruct (mesh part rs ns) as [|x m] eqn:Em; [cbn in D; lia|]. cbn [length] in D. injection D as D. cbn [hd] in B.
    split; [exact NP|]. split; [cbn [nth]; rewrite B; exact H0|]. split; [intros e He; apply inc_nth; [exact A|lia]|]. split; [cbn [nth]; symmetry; exact B|]. split; [|split; [reflexivity|split; assumption]].
    rewrite <- C, <- D. clear. revert x. induction m as [|y m IH]; intros x; [reflexivity|]. apply (IH y).
  - intros r Hr. destruct (In_nth _ _ 0 (E r Hr)) as (k & Hk & Ek). exists k. split; [lia|exact Ek].
Qed.

(** segment i starts at its end point, and its elements are of material i *)
Lemma nth_last (l : list R) n : length l = S n -> nth n l 0 = last l 0.
Proof. revert n. induction l as [|x l IH]; intros n H; [cbn in H; lia|]. destruct l as [|y l]; [cbn in H; assert (n = 0%nat) by lia; subst; reflexivity|]. destruct n as [|n]; [cbn in H; lia|]. apply (IH n). cbn in *. lia. Qed.
Lemma mesh_node part rs ns i : (forall n, (1 <= n)%nat -> part_ok (part n) n) -> segments rs ns -> (i <= length ns)%nat -> nth (list_sum (firstn i ns)) (mesh part rs ns) 0 = nth i rs 0.
Proof.
  intros HP. revert rs i. induction ns as [|n ns IH]; intros rs i (HL & HI & HN) Hi; destruct rs as [|a rs]; cbn in HL; try lia.
  - cbn in Hi. assert (i = 0%nat) by lia. subst i. reflexivity.
  - destruct rs as [|b rs]; cbn in HL; try lia. inversion HN as [|? ? HN1 HN2]; subst. destruct HI as [HI1 HI2]. destruct i as [|i]; [reflexivity|]. cbn [firstn]. change (list_sum (n :: firstn i ns)) with (n + list_sum (firstn i ns))%nat. cbn [length] in Hi.
    change (nth (S i) (a :: b :: rs) 0) with (nth i (b :: rs) 0). rewrite <- (IH (b :: rs) i); [|split; [cbn; lia|split; [exact HI2|exact HN2]]|lia]. destruct (HP n HN1) as (P1 & P2 & P3). cbn [mesh].
    change (mesh_from part (a :: b :: rs) (n :: ns)) with (map (fun x => x * (b - a) + a) (part n) ++ mesh_from part (b :: rs) ns). set (S1 := map (fun x => x * (b - a) + a) (part n)). assert (L1 : length S1 = n) by (unfold S1; rewrite map_length; exact P3).
    set (k := list_sum (firstn i ns)). destruct n as [|n']; [lia|]. cbn [Nat.add nth]. destruct k as [|k].
    + rewrite Nat.add_0_r, app_nth1 by lia. cbn [nth]. unfold S1. rewrite (nth_indep _ 0 ((fun x => x * (b - a) + a) 0)) by (rewrite map_length; lia). rewrite (map_nth (fun x => x * (b - a) + a)).
      assert (E : nth n' (part (S n')) 0 = 1) by (rewrite (nth_last _ _ P3); exact P2). rewrite E. ring.
    + rewrite app_nth2 by lia. replace (n' + S k - length S1)%nat with k by lia. reflexivity.
Qed.
Lemma nth_repeat_lt {A} (x d : A) n k : (k < n)%nat -> nth k (repeat x n) d = x.
Proof. revert k. induction n as [|n IH]; intros k H; [lia|]. destruct k as [|k]; [reflexivity|]. apply IH. lia. Qed.
Lemma mats_nth (mats : list pymodel) ns i j dflt : length mats = length ns -> (i < length ns)%nat -> (j < nth i ns 0)%nat ->
  nth (list_sum (firstn i ns) + j) (concat (map (fun x => repeat (fst x) (snd x)) (combine mats ns))) dflt = nth i mats dflt.
Proof.
  revert ns i. induction mats as [|m mats IH]; intros ns i HL Hi Hj; destruct ns as [|n ns]; cbn in HL, Hi; try lia. cbn [combine map concat fst snd]. destruct i as [|i].
  - cbn [firstn nth] in *. change (list_sum []) with 0%nat. cbn [Nat.add]. rewrite app_nth1 by (rewrite repeat_length; exact Hj). apply nth_repeat_lt, Hj.
  - cbn [firstn nth] in *. change (list_sum (n :: firstn i ns)) with (n + list_sum (firstn i ns))%nat. rewrite app_nth2; rewrite repeat_length; [|lia]. replace (n + list_sum (firstn i ns) + j - n)%nat with (list_sum (firstn i ns) + j)%nat by lia. apply IH; lia.
Qed.
(** the element j of segment i lies between the ends of the segment and has its material *)
Lemma make_layers part rule rs mats ns dflt T p pext con i j : (forall n, (1 <= n)%nat -> part_ok (part n) n) -> segments rs ns -> length mats = length ns -> (i < length ns)%nat -> (j < nth i ns 0)%nat ->
  let a := axi_make part rule rs mats ns dflt T p pext con in let e := (list_sum (firstn i ns) + j)%nat in
  ax_mat a e = nth i mats dflt /\ nth i rs 0 <= ax_mesh a e /\ ax_mesh a e < ax_mesh a (S e) /\ ax_mesh a (S e) <= nth (S i) rs 0.
Proof.
  intros HP HS HM Hi Hj a e. split; [apply mats_nth; assumption|]. unfold a, e. cbn [axi_make ax_mesh]. destruct (mesh_ok part rs ns HP HS) as (A & _ & _ & D & _).
  assert (N0 := mesh_node part rs ns i HP HS ltac:(lia)). assert (N1 := mesh_node part rs ns (S i) HP HS ltac:(lia)).
  assert (E1 : list_sum (firstn (S i) ns) = (list_sum (firstn i ns) + nth i ns 0)%nat).
  { clear - Hi. revert i Hi. induction ns as [|n ns IH]; intros i Hi; [cbn in Hi; lia|]. destruct i as [|i]; [cbn; lia|]. rewrite !firstn_cons. cbn [nth]. change (list_sum (n :: firstn (S i) ns)) with (n + list_sum (firstn (S i) ns))%nat. change (list_sum (n :: firstn i ns)) with (n + list_sum (firstn i ns))%nat. rewrite IH by (cbn in Hi; lia). lia. }
  assert (LE : (list_sum (firstn (S i) ns) <= list_sum ns)%nat) by (rewrite <- (firstn_skipn (S i) ns) at 2; rewrite list_sum_app; lia).
  set (M := mesh part rs ns) in *. destruct M as [|x m]; [cbn in D; lia|]. cbn [length] in D.
  assert (MON : forall k l, (k + l < S (length m))%nat -> nth k (x :: m) 0 <= nth (k + l) (x :: m) 0).
  { intros k l. induction l as [|l IHl]; intros Hl; [rewrite Nat.add_0_r; lra|]. rewrite Nat.add_succ_r. apply Rle_trans with (nth (k + l) (x :: m) 0); [apply IHl; lia|]. apply Rlt_le, inc_nth; [exact A|lia]. }
  rewrite <- N0, <- N1. split; [apply MON; lia|]. split; [apply inc_nth; [exact A|lia]|]. rewrite E1. replace (list_sum (firstn i ns) + nth i ns 0)%nat with (S (list_sum (firstn i ns) + j) + (nth i ns 0 - S j))%nat by lia. apply MON. lia.
Qed.
(** the surfaces of a layered wall have the temperatures of the plain gradient *)
Lemma outer_gradient ri ro h t : ri < ro -> outer h t = gradient ri ro h ro t.
Proof. intros H. rewrite gradient_outer by exact H. field. lra. Qed.
Lemma knots_lt rs ks : knots rs ks -> nth 0 rs 0 < nth (length ks) rs 0.
Proof.
  intros (L & I & _ & K). destruct rs as [|a rs]; [cbn in L; lia|]. destruct ks as [|k ks]; [cbn in K; lia|]. apply (inc_le _ rs _ I). cbn [length] in *. cbn [nth]. apply nth_In. lia.
Qed.
Lemma multi_surfaces rs ks h t : knots rs ks -> let g := gradient (nth 0 rs 0) (nth (length ks) rs 0) h in
  multi rs ks h false (nth 0 rs 0) t = Some (hi_T1 h) /\ multi rs ks h false (nth (length ks) rs 0) t = Some (g (nth (length ks) rs 0) t) /\
  multi rs ks h true (nth 0 rs 0) t = Some (g (nth (length ks) rs 0) t) /\ multi rs ks h true (nth (length ks) rs 0) t = Some (hi_T1 h).
Proof. intros K g. unfold g. rewrite <- outer_gradient by (apply knots_lt, K). apply multi_ends, K. Qed.
Lemma multi_lengths rs ks h flip r t : multi rs ks h flip r t = None <-> length rs <> S (length ks).
Proof.
  unfold multi. rewrite Nat.add_1_r. destruct (Nat.eqb_spec (length rs) (S (length ks))) as [E|E]; [|tauto]. split; [|tauto]. destruct (Rlt_dec t (hi_delay h)); discriminate.
Qed.
