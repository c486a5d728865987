(** Proofs about objects built from several lists *)
From Verif Require Import Base NemlMathModel HardModel CreepModel DamageModel LenModel LenSpec.
From Coq Require Import List Arith Lia Lra.
Import ListNotations.
Open Scope R_scope.
Open Scope list_scope.

Lemma rd_in : forall A (l : list A) d i, (i < length l)%nat -> rd l i = Done (nth i l d).
Proof. intros A l d i H. unfold rd. rewrite (nth_error_nth' l d H). reflexivity. Qed.
Lemma rd_out : forall A (l : list A) i, (length l <= i)%nat -> rd l i = Outside.
Proof. intros A l i H. unfold rd. apply nth_error_None in H. rewrite H. reflexivity. Qed.
Lemma rd_ref : forall A (l : list A) i, rd l i <> Refused.
Proof. intros A l i. unfold rd. destruct (nth_error l i); discriminate. Qed.
Lemma rd_safe : forall A (l : list A) i, rd l i <> Outside <-> (i < length l)%nat.
Proof.
  intros A l i. unfold rd. rewrite <- nth_error_Some. destruct (nth_error l i); split; intros H; try discriminate; try (now destruct H).
Qed.

Lemma each_done : forall A B (f : A -> out B) (g : A -> B) l, (forall x, In x l -> f x = Done (g x)) -> each f l = Done (map g l).
Proof.
  induction l as [|x r IH]; intros H; [reflexivity|]. cbn [each map]. rewrite (H x) by (left; reflexivity). cbn [obnd].
  rewrite IH by (intros y Hy; apply H; right; exact Hy). reflexivity.
Qed.
Lemma each_safe : forall A B (f : A -> out B) l x, (forall y, f y <> Refused) -> In x l -> f x = Outside -> each f l = Outside.
Proof.
  induction l as [|y r IH]; intros x NR Hx Fx; [destruct Hx|]. cbn [each]. destruct (f y) as [b| |] eqn:Fy; cbn [obnd].
  - destruct Hx as [-> | Hx]; [rewrite Fx in Fy; discriminate|]. rewrite (IH x NR Hx Fx). reflexivity.
  - exfalso. exact (NR y Fy).
  - reflexivity.
Qed.
Lemma each_ref : forall A B (f : A -> out B) l, (forall y, f y <> Refused) -> each f l <> Refused.
Proof.
  induction l as [|y r IH]; intros NR; cbn [each]; [discriminate|]. destruct (f y) as [b| |] eqn:Fy; cbn [obnd].
  - destruct (each f r) eqn:E; cbn [obnd]; try discriminate. exfalso. now apply IH.
  - exfalso. exact (NR y Fy).
  - discriminate.
Qed.
Lemma bnd_ref : forall A B (x : out A) (f : A -> out B), x <> Refused -> (forall a, f a <> Refused) -> obnd x f <> Refused.
Proof. intros A B x f Hx Hf. destruct x; cbn [obnd]; [apply Hf | now destruct Hx | discriminate]. Qed.

(** ** Chaboche *)
Lemma div6 : forall i j, (j < 6)%nat -> ((i * 6 + j) / 6 = i)%nat.
Proof. intros i j H. rewrite Nat.div_add_l by lia. rewrite Nat.div_small by exact H. lia. Qed.
Lemma mod6 : forall i j, (j < 6)%nat -> ((i * 6 + j) mod 6 = j)%nat.
Proof. intros i j H. rewrite Nat.add_comm, Nat.mod_add by lia. apply Nat.mod_small; exact H. Qed.
Lemma nth_rows : forall (f : nat -> nat -> R) n i j, (i < n)%nat -> (j < 6)%nat ->
  nth j (nth i (map (fun i => map (f i) (List.seq 0 6)) (List.seq 0 n)) []) 0 = f i j.
Proof.
  intros f n i j Hi Hj.
  rewrite (nth_indep _ [] (map (f 0%nat) (List.seq 0 6))) by (rewrite map_length, seq_length; exact Hi).
  rewrite (map_nth (fun i => map (f i) (List.seq 0 6)) (List.seq 0 n) 0%nat i), seq_nth by exact Hi.
  rewrite (nth_indep _ 0 (f (0 + i)%nat 0%nat)) by (rewrite map_length, seq_length; exact Hj).
  rewrite (map_nth (f (0 + i)%nat)), seq_nth by exact Hj. reflexivity.
Qed.

Lemma ev_nth : forall l T i, nth i (eval_vector l T) 0 = nth i l (fun _ => 0) T.
Proof. intros l T i. unfold eval_vector. exact (map_nth (fun f : R -> R => f T) l (fun _ => 0) i). Qed.
Lemma chaboche_value : forall p h0 s al T, (length (cl_C p) <= length (cl_g p))%nat ->
  exists rows, cl_h p s al T = Done rows /\ length rows = length (cl_C p)
    /\ forall i j, (i < length (cl_C p))%nat -> (j < 6)%nat ->
         nth j (nth i rows []) 0 = ch_h (first_entries p) h0 s al T (S (i * 6 + j)).
Proof.
  intros p h0 s al T H.
  exists (map (fun i => map (fun j => ch_h (first_entries p) h0 s al T (S (i * 6 + j))) (List.seq 0 6)) (List.seq 0 (length (cl_C p)))).
  split; [|split].
  - unfold cl_h. apply each_done. intros i Hi. apply in_seq in Hi. unfold cl_n in Hi. apply each_done. intros j Hj. apply in_seq in Hj.
    rewrite (rd_in _ _ 0) by (unfold eval_vector; rewrite map_length; lia). cbn [obnd].
    rewrite (rd_in _ (cl_g p) {| gm := fun _ _ => 0; gm_d := fun _ _ => 0 |}) by lia. cbn [obnd].
    unfold ch_h. rewrite div6, mod6 by lia. rewrite ev_nth. reflexivity.
  - rewrite map_length, seq_length. reflexivity.
  - intros i j Hi Hj. apply (nth_rows (fun i j => ch_h (first_entries p) h0 s al T (S (i * 6 + j)))); assumption.
Qed.
Lemma chaboche_lists : forall p s al T, safe (cl_h p s al T) <-> (length (cl_C p) <= length (cl_g p))%nat.
Proof.
  intros p s al T. split.
  - intros S. destruct (le_lt_dec (length (cl_C p)) (length (cl_g p))) as [|L]; [assumption|]. exfalso. apply S.
    unfold cl_h. apply (each_safe _ _ _ _ (length (cl_g p))).
    + intros i. apply each_ref. intros j. apply bnd_ref; [apply rd_ref|]. intros ci. apply bnd_ref; [apply rd_ref|]. discriminate.
    + apply in_seq. unfold cl_n. lia.
    + apply (each_safe _ _ _ _ 0%nat).
      * intros j. apply bnd_ref; [apply rd_ref|]. intros ci. apply bnd_ref; [apply rd_ref|]. discriminate.
      * apply in_seq. lia.
      * rewrite (rd_in _ _ 0) by (unfold eval_vector; rewrite map_length; lia). cbn [obnd].
        rewrite rd_out by lia. reflexivity.
  - intros L E. destruct (chaboche_value p 0 s al T L) as (rows & E1 & _). rewrite E1 in E. discriminate.
Qed.
Lemma chaboche_time_value : forall p al T, (length (cl_C p) <= length (cl_A p))%nat -> (length (cl_C p) <= length (cl_a p))%nat ->
  exists rows, cl_h_time p al T = Done rows /\ length rows = length (cl_C p)
    /\ forall i j, (i < length (cl_C p))%nat -> (j < 6)%nat ->
         nth j (nth i rows []) 0 = ch_ht (first_entries p) al T (S (i * 6 + j)).
Proof.
  intros p al T H H'.
  exists (map (fun i => map (fun j => ch_ht (first_entries p) al T (S (i * 6 + j))) (List.seq 0 6)) (List.seq 0 (length (cl_C p)))).
  split; [|split].
  - unfold cl_h_time. apply each_done. intros i Hi. apply in_seq in Hi. unfold cl_n in Hi. apply each_done. intros j Hj. apply in_seq in Hj.
    rewrite (rd_in _ _ 0) by (unfold eval_vector; rewrite map_length; lia). cbn [obnd].
    rewrite (rd_in _ (eval_vector (cl_a p) T) 0) by (unfold eval_vector; rewrite map_length; lia). cbn [obnd].
    unfold ch_ht. rewrite div6 by lia. rewrite !ev_nth. reflexivity.
  - rewrite map_length, seq_length. reflexivity.
  - intros i j Hi Hj. apply (nth_rows (fun i j => ch_ht (first_entries p) al T (S (i * 6 + j)))); assumption.
Qed.
Lemma chaboche_time_lists : forall p al T,
  safe (cl_h_time p al T) <-> (length (cl_C p) <= length (cl_A p))%nat /\ (length (cl_C p) <= length (cl_a p))%nat.
Proof.
  intros p al T. split.
  - intros S. assert (K : forall k, (k < length (cl_C p))%nat -> (length (cl_A p) <= k \/ length (cl_a p) <= k)%nat -> False).
    { intros k Hk O. apply S. unfold cl_h_time. apply (each_safe _ _ _ _ k).
      - intros i. apply each_ref. intros j. apply bnd_ref; [apply rd_ref|]. intros ci. apply bnd_ref; [apply rd_ref|]. discriminate.
      - apply in_seq. unfold cl_n. lia.
      - apply (each_safe _ _ _ _ 0%nat).
        + intros j. apply bnd_ref; [apply rd_ref|]. intros ci. apply bnd_ref; [apply rd_ref|]. discriminate.
        + apply in_seq. lia.
        + destruct (le_lt_dec (length (cl_A p)) k) as [LA|LA].
          * rewrite rd_out by (unfold eval_vector; rewrite map_length; lia). reflexivity.
          * rewrite (rd_in _ _ 0) by (unfold eval_vector; rewrite map_length; lia). cbn [obnd].
            rewrite rd_out by (unfold eval_vector; rewrite map_length; lia). reflexivity. }
    split.
    + destruct (le_lt_dec (length (cl_C p)) (length (cl_A p))) as [|L]; [assumption|]. exfalso. apply (K (length (cl_A p))); lia.
    + destruct (le_lt_dec (length (cl_C p)) (length (cl_a p))) as [|L]; [assumption|]. exfalso. apply (K (length (cl_a p))); lia.
  - intros [L L'] E. destruct (chaboche_time_value p al T L L') as (rows & E1 & _). rewrite E1 in E. discriminate.
Qed.

(** ** RegionKMCreep *)
Lemma rk_loop_scan : forall cuts A B i neq T, rk_loop cuts A B i neq T =
  obnd (rd A (km_scan cuts i neq)) (fun a => obnd (rd B (km_scan cuts i neq)) (fun b => Done (a T, b T))).
Proof.
  induction cuts as [|c r IH]; intros A B i neq T; cbn [rk_loop km_scan]; [reflexivity|].
  destruct (Rlt_dec c neq); [reflexivity|]. apply IH.
Qed.
Lemma km_scan_range : forall cuts i neq, (km_scan cuts i neq <= i + length cuts)%nat.
Proof.
  induction cuts as [|c r IH]; intros i neq; cbn [km_scan length]; [lia|]. destruct (Rlt_dec c neq); [lia|]. specialize (IH (S i) neq). lia.
Qed.
Lemma km_scan_end : forall cuts i neq, List.Forall (Rle neq) cuts -> km_scan cuts i neq = (i + length cuts)%nat.
Proof.
  induction cuts as [|c r IH]; intros i neq F; cbn [km_scan length]; [lia|]. inversion F; subst.
  destruct (Rlt_dec c neq); [lra|]. rewrite IH by assumption. lia.
Qed.
Lemma pair_safe : forall (A B : list (R -> R)) k T,
  safe (obnd (rd A k) (fun a => obnd (rd B k) (fun b => Done (a T, b T)))) <-> (k < length A /\ k < length B)%nat.
Proof.
  intros A B k T. unfold safe. destruct (le_lt_dec (length A) k) as [LA|LA].
  - rewrite rd_out by exact LA. cbn [obnd]. split; [intros H; now destruct H | lia].
  - rewrite (rd_in _ A (fun _ => 0)) by exact LA. cbn [obnd]. destruct (le_lt_dec (length B) k) as [LB|LB].
    + rewrite rd_out by exact LB. cbn [obnd]. split; [intros H; now destruct H | lia].
    + rewrite (rd_in _ B (fun _ => 0)) by exact LB. cbn [obnd]. split; [lia | discriminate].
Qed.
Lemma region_lists : forall cuts A B, cuts_start cuts ->
  ((forall neq T, 0 <= neq -> safe (rk_select cuts A B neq T))
   <-> (length A = 1 /\ 1 <= length B)%nat \/ (cuts <> [] /\ length cuts < length A /\ length cuts < length B)%nat).
Proof.
  intros cuts A B CS. unfold rk_select. destruct (Nat.eqb_spec (length A) 1) as [E|E].
  - split.
    + intros H. left. split; [exact E|]. specialize (H 0 0 (Rle_refl 0)). apply pair_safe in H. lia.
    + intros H neq T _. apply pair_safe. destruct H as [H|(H1 & H2 & H3)]; [lia|]. destruct cuts; [now destruct H1|]. cbn [length] in *. lia.
  - destruct cuts as [|c0 r].
    + split.
      * intros H. exfalso. apply (H 0 0 (Rle_refl 0)). reflexivity.
      * intros [H|(H & _)]; [lia | now destruct H].
    + cbn [cuts_start] in CS. destruct CS as [C0 CF]. change (rd (c0 :: r) 0) with (Done c0). cbn [obnd]. split.
      * intros H. right. split; [discriminate|]. specialize (H c0 0 C0).
        destruct (Rlt_dec c0 c0); [lra|]. rewrite rk_loop_scan in H. apply pair_safe in H.
        rewrite km_scan_end in H by (constructor; [lra | exact CF]). cbn [length] in *. lia.
      * intros [H|(_ & H2 & H3)] neq T _; [lia|].
        destruct (Rlt_dec neq c0).
        -- apply pair_safe. cbn [length] in *. lia.
        -- rewrite rk_loop_scan. apply pair_safe. pose proof (km_scan_range (c0 :: r) 0 neq). cbn [length] in *. lia.
Qed.
Lemma region_value : forall cuts A B neq T k, km_region (length A) cuts neq = Some k -> (k < length A)%nat -> (k < length B)%nat ->
  rk_select cuts A B neq T = Done (nth k A (fun _ => 0) T, nth k B (fun _ => 0) T).
Proof.
  intros cuts A B neq T k K LA LB.
  assert (P : obnd (rd A k) (fun a => obnd (rd B k) (fun b => Done (a T, b T))) = Done (nth k A (fun _ => 0) T, nth k B (fun _ => 0) T)).
  { rewrite (rd_in _ A (fun _ => 0)), (rd_in _ B (fun _ => 0)) by assumption. reflexivity. }
  unfold rk_select, km_region in *. destruct (Nat.eqb (length A) 1); [inversion K; subst; exact P|].
  destruct cuts as [|c0 r]; [discriminate|]. change (rd (c0 :: r) 0) with (Done c0). cbn [obnd].
  destruct (Rlt_dec neq c0); [inversion K; subst; exact P|]. rewrite rk_loop_scan. inversion K; subst. exact P.
Qed.

(** ** KMRegimeModel *)
Lemma kr_loop_safe : forall M (models : list M) gs i g, (i + length gs <= length models)%nat -> models <> [] -> kr_loop gs models i g <> Outside.
Proof.
  induction gs as [|x r IH]; intros i g L N; cbn [kr_loop length] in *.
  - destruct models; [now destruct N | discriminate].
  - destruct (Rlt_dec g x).
    + destruct models as [|m0 ms]; [now destruct N|]. rewrite (rd_in _ (m0 :: ms) m0) by lia. discriminate.
    + apply IH; [lia | exact N].
Qed.
Lemma kr_at : forall M (models : list M) gs x i k, rising (x :: gs) -> (k < length gs)%nat ->
  kr_loop gs models i (nth k (x :: gs) 0) = obnd (rd models (i + k)) (fun _ => Done (i + k)%nat).
Proof.
  induction gs as [|y r IH]; intros x i k [F RS] K; cbn [length] in K; [lia|]. inversion F; subst. destruct k as [|k].
  - cbn [kr_loop nth]. destruct (Rlt_dec x y); [|lra]. rewrite Nat.add_0_r. reflexivity.
  - cbn [kr_loop]. change (nth (S k) (x :: y :: r) 0) with (nth k (y :: r) 0).
    destruct (Rlt_dec (nth k (y :: r) 0) y) as [L|L].
    + exfalso. destruct k as [|k]; [cbn [nth] in L; lra|]. cbn [nth] in L. destruct RS as [F' _].
      rewrite List.Forall_forall in F'. specialize (F' (nth k r 0)). assert (In (nth k r 0) r) by (apply nth_In; lia). specialize (F' H). lra.
    + rewrite IH by (assumption || lia). replace (S i + k)%nat with (i + S k)%nat by lia. reflexivity.
Qed.
Lemma kr_reach : forall M (models : list M) gs k, rising gs -> (k < length gs)%nat ->
  exists g, kr_loop gs models 0 g = obnd (rd models k) (fun _ => Done k).
Proof.
  intros M models gs k RS K. destruct gs as [|x r]; [cbn [length] in K; lia|]. destruct k as [|k].
  - exists (x - 1). cbn [kr_loop]. destruct (Rlt_dec (x - 1) x); [reflexivity | lra].
  - exists (nth k (x :: r) 0). cbn [length] in K. cbn [kr_loop]. destruct (Rlt_dec (nth k (x :: r) 0) x) as [L|L].
    + exfalso. destruct k as [|k]; [cbn [nth] in L; lra|]. cbn [nth] in L. destruct RS as [F' _].
      rewrite List.Forall_forall in F'. assert (In (nth k r 0) r) by (apply nth_In; lia). specialize (F' _ H). lra.
    + rewrite kr_at by (assumption || lia). reflexivity.
Qed.
Lemma regimes_lists : forall M (models : list M) gs, rising gs ->
  ((forall g, safe (kr_update gs models g)) <-> (1 <= length models /\ length gs <= length models)%nat).
Proof.
  intros M models gs RS. split.
  - intros H. assert (N : (1 <= length models)%nat).
    { destruct models as [|m0 ms]; [|cbn [length]; lia]. exfalso. apply (H 0). reflexivity. }
    split; [exact N|]. destruct (le_lt_dec (length gs) (length models)) as [|L]; [assumption|]. exfalso.
    destruct (kr_reach M models gs (length models) RS L) as [g Hg]. apply (H g).
    unfold kr_update, kr_make. destruct models as [|m0 ms]; [cbn [length] in N; lia|]. change (rd (m0 :: ms) 0) with (Done m0). cbn [obnd].
    rewrite Hg, rd_out by lia. reflexivity.
  - intros [N L] g. unfold safe, kr_update, kr_make. destruct models as [|m0 ms]; [cbn [length] in N; lia|].
    change (rd (m0 :: ms) 0) with (Done m0). cbn [obnd]. apply kr_loop_safe; [lia | discriminate].
Qed.
Lemma kr_loop_which : forall M (models : list M) gs i g k, kr_loop gs models i g = Done k ->
  (exists j, (j < length gs)%nat /\ k = (i + j)%nat /\ g < nth j gs 0 /\ forall j', (j' < j)%nat -> nth j' gs 0 <= g)
  \/ (k = (length models - 1)%nat /\ List.Forall (fun x => x <= g) gs).
Proof.
  induction gs as [|x r IH]; intros i g k E; cbn [kr_loop] in E.
  - right. destruct models; [discriminate|]. inversion E. split; [reflexivity | constructor].
  - destruct (Rlt_dec g x) as [L|L].
    + left. exists 0%nat. unfold rd in E. destruct (nth_error models i); cbn [obnd] in E; [|discriminate]. inversion E; subst.
      cbn [length nth]. repeat split; try lia; try assumption.
    + destruct (IH _ _ _ E) as [(j & Hj & -> & Hg & Hb)|[-> F]].
      * left. exists (S j). cbn [length nth]. repeat split; try lia; try assumption.
        intros j' Hj'. destruct j' as [|j']; [cbn [nth]; lra|]. cbn [nth]. apply Hb. lia.
      * right. split; [reflexivity|]. constructor; [lra | exact F].
Qed.
Lemma regimes_used : forall M (models : list M) gs g k, kr_update gs models g = Done k ->
  ((k < length gs)%nat /\ g < nth k gs 0 /\ (forall j, (j < k)%nat -> nth j gs 0 <= g))
  \/ (k = (length models - 1)%nat /\ forall x, In x gs -> x <= g).
Proof.
  intros M models gs g k E. unfold kr_update, kr_make in E. destruct models as [|m0 ms]; [discriminate|].
  change (rd (m0 :: ms) 0) with (Done m0) in E. cbn [obnd] in E. destruct (kr_loop_which _ _ _ _ _ _ E) as [(j & Hj & -> & Hg & Hb)|[-> F]].
  - left. repeat split; assumption.
  - right. split; [reflexivity|]. apply List.Forall_forall. exact F.
Qed.

(** ** Effective stresses *)
Lemma ss_fold : forall ms ws k n e, (k + n <= length ms)%nat -> (k + n <= length ws)%nat ->
  fold_left (fun acc i => obnd acc (fun e => obnd (rd ms i) (fun v => obnd (rd ws i) (fun w => Done (e + w * v))))) (List.seq k n) (Done e)
  = Done (e + rsum n (fun i => nth (k + i) ws 0 * nth (k + i) ms 0)).
Proof.
  intros ms ws k n. revert k. induction n as [|n IH]; intros k e L L'; [cbn; f_equal; ring|].
  rewrite seq_S, fold_left_app, IH by lia. cbn [fold_left obnd]. rewrite (rd_in _ ms 0), (rd_in _ ws 0) by lia. cbn [obnd rsum].
  f_equal. ring.
Qed.
Lemma sum_lists : forall ms ws,
  (length ms <> length ws -> ss_effective ms ws = Refused)
  /\ (length ms = length ws -> ss_effective ms ws = Done (rsum (length ms) (fun i => nth i ws 0 * nth i ms 0))).
Proof.
  intros ms ws. unfold ss_effective, check. destruct (Nat.eqb_spec (length ms) (length ws)) as [E|E]; split; intros H; try lia.
  - rewrite (ss_fold ms ws 0 (length ms)) by lia. cbn [Nat.add]. f_equal. ring.
  - reflexivity.
Qed.
Lemma ms_loop_some : forall ms i b, exists k v, ms_loop ms i (Some b) = Some (k, v) /\
  ((k, v) = b \/ ((i <= k < i + length ms)%nat /\ nth (k - i) ms 0 = v)) /\ snd b <= v /\ (forall j, (j < length ms)%nat -> nth j ms 0 <= v).
Proof.
  induction ms as [|x r IH]; intros i [k0 v0]; cbn [ms_loop].
  - exists k0, v0. repeat split; [left; reflexivity | cbn; lra | cbn [length]; intros; lia].
  - destruct (Rlt_dec v0 x) as [L|L].
    + destruct (IH (S i) (i, x)) as (k & v & E & W & B & M). exists k, v. split; [exact E|]. cbn [snd] in *. split; [|split].
      * right. destruct W as [W|[W1 W2]]; [inversion W; subst; cbn [length]; rewrite Nat.sub_diag; split; [lia | reflexivity]|].
        cbn [length]. split; [lia|]. replace (k - i)%nat with (S (k - S i)) by lia. exact W2.
      * lra.
      * intros [|j] Hj; cbn [nth]; [exact B|]. apply M. cbn [length] in Hj. lia.
    + destruct (IH (S i) (k0, v0)) as (k & v & E & W & B & M). exists k, v. split; [exact E|]. cbn [snd] in *. split; [|split].
      * destruct W as [W|[W1 W2]]; [left; exact W|]. right. cbn [length]. split; [lia|]. replace (k - i)%nat with (S (k - S i)) by lia. exact W2.
      * exact B.
      * intros [|j] Hj; cbn [nth]; [lra|]. apply M. cbn [length] in Hj. lia.
Qed.
Lemma max_lists : forall ms,
  (ms = [] -> ms_pick ms = Outside)
  /\ (ms <> [] -> exists k, ms_pick ms = Done k /\ (k < length ms)%nat /\ forall j, (j < length ms)%nat -> nth j ms 0 <= nth k ms 0).
Proof.
  intros ms. split; intros H; [subst; reflexivity|]. destruct ms as [|x r]; [now destruct H|]. clear H.
  unfold ms_pick. cbn [ms_loop]. destruct (ms_loop_some r 1 (0%nat, x)) as (k & v & E & W & B & M). rewrite E. cbn [snd] in B.
  assert (K : (k < length (x :: r))%nat /\ nth k (x :: r) 0 = v).
  { destruct W as [W|[W1 W2]]; [inversion W; subst; cbn [length nth]; split; [lia | reflexivity]|].
    cbn [length]. split; [lia|]. destruct k as [|k]; [lia|]. cbn [nth]. replace (S k - 1)%nat with k in W2 by lia. exact W2. }
  destruct K as [K Kv]. exists k. rewrite (rd_in _ (x :: r) 0) by exact K. cbn [obnd]. split; [reflexivity|]. split; [exact K|].
  rewrite Kv. intros [|j] Hj; cbn [nth]; [exact B|]. apply M. cbn [length] in Hj. lia.
Qed.

(** ** Slip hardening *)
Lemma fixed_lists : forall st n, (forall k, (k < n)%nat -> safe (fs_tau st k)) <-> (n <= length st)%nat.
Proof.
  intros st n. unfold safe, fs_tau. split.
  - intros H. destruct (le_lt_dec n (length st)) as [|L]; [assumption|]. specialize (H (length st) L). apply rd_safe in H. lia.
  - intros L k K. apply rd_safe. lia.
Qed.
Lemma vp_inner : forall (init ks sat m : list R) (F : R -> R -> R -> R -> R) k,
  safe (obnd (rd ks k) (fun kk => obnd (rd init k) (fun i0 => obnd (rd sat k) (fun sa => obnd (rd m k) (fun mm => Done (F kk i0 sa mm))))))
  <-> (k < length ks /\ k < length init /\ k < length sat /\ k < length m)%nat.
Proof.
  intros init ks sat m F k. unfold safe.
  destruct (le_lt_dec (length ks) k) as [L|L]; [rewrite rd_out by exact L; cbn [obnd]; split; [intros H; now destruct H | lia] | rewrite (rd_in _ ks 0) by exact L; cbn [obnd]].
  destruct (le_lt_dec (length init) k) as [L1|L1]; [rewrite rd_out by exact L1; cbn [obnd]; split; [intros H; now destruct H | lia] | rewrite (rd_in _ init 0) by exact L1; cbn [obnd]].
  destruct (le_lt_dec (length sat) k) as [L2|L2]; [rewrite rd_out by exact L2; cbn [obnd]; split; [intros H; now destruct H | lia] | rewrite (rd_in _ sat 0) by exact L2; cbn [obnd]].
  destruct (le_lt_dec (length m) k) as [L3|L3]; [rewrite rd_out by exact L3; cbn [obnd]; split; [intros H; now destruct H | lia] | rewrite (rd_in _ m 0) by exact L3; cbn [obnd]].
  split; [lia | discriminate].
Qed.
(* for all k < n: k is below each length *)
Lemma below3 : forall n a b c d, (forall k, (k < n)%nat -> (k < a /\ k < b /\ k < c /\ k < d)%nat) <-> (n <= a /\ n <= b /\ n <= c /\ n <= d)%nat.
Proof.
  intros n a b c d. split.
  - intros H. destruct n as [|n]; [lia|]. specialize (H n). lia.
  - intros H k K. lia.
Qed.
Lemma voce_lists : forall init ks sat m n h sl,
  (forall k, (k < n)%nat -> safe (vp_row init ks sat m n h sl k))
  <-> (n <> length init \/ (n <= length ks /\ n <= length sat /\ n <= length m))%nat.
Proof.
  intros init ks sat m n h sl. unfold vp_row, check. destruct (Nat.eqb_spec n (length init)) as [E|E].
  - rewrite E. split.
    + intros H. right. assert (Q : forall k, (k < length init)%nat -> (k < length ks /\ k < length init /\ k < length sat /\ k < length m)%nat).
      { intros k K. specialize (H k K). apply vp_inner in H. exact H. }
      apply below3 in Q. lia.
    + intros H k K. apply (vp_inner init ks sat m (fun kk i0 sa mm => kk * cpow (1 - (h k - i0) / (sa - i0)) mm * sl k)). lia.
  - split; [intros _; left; exact E | intros _ k K; discriminate].
Qed.
Lemma voce_d_lists : forall init ks sat m n h d,
  (forall k, (k < n)%nat -> safe (vp_row_s init ks sat m n h d k))
  <-> (n <= length init /\ n <= length ks /\ n <= length sat /\ n <= length m)%nat.
Proof.
  intros init ks sat m n h d. unfold vp_row_s. split.
  - intros H. assert (Q : forall k, (k < n)%nat -> (k < length ks /\ k < length init /\ k < length sat /\ k < length m)%nat).
    { intros k K. specialize (H k K). destruct (le_lt_dec (length init) k) as [L|L].
      - rewrite rd_out in H by exact L. now destruct H.
      - rewrite (rd_in _ init 0) in H at 1 by exact L. cbn [obnd] in H.
        apply (vp_inner init ks sat m (fun kk i0 sa mm => kk * cpow (1 - (h k - i0) / (sa - i0)) mm * d k)). exact H. }
    apply below3 in Q. lia.
  - intros H k K. rewrite (rd_in _ init 0) at 1 by lia. cbn [obnd].
    apply (vp_inner init ks sat m (fun kk i0 sa mm => kk * cpow (1 - (h k - i0) / (sa - i0)) mm * d k)). lia.
Qed.
Lemma fa_lists : forall ks sat n h sl,
  (forall k, (k < n)%nat -> safe (fa_row ks sat n h sl k)) <-> (n <> length ks \/ n <= length sat)%nat.
Proof.
  intros ks sat n h sl. unfold fa_row, check, safe. destruct (Nat.eqb_spec n (length ks)) as [E|E].
  - split.
    + intros H. right. destruct (le_lt_dec n (length sat)) as [|L]; [assumption|]. exfalso. apply (H (length sat) L).
      rewrite (rd_in _ ks 0) by lia. cbn [obnd]. rewrite rd_out by lia. reflexivity.
    + intros H k K. rewrite (rd_in _ ks 0), (rd_in _ sat 0) by lia. discriminate.
  - split; [intros _; left; exact E | intros _ k K; discriminate].
Qed.
Lemma sq_in : forall m i j, (i < m)%nat -> (j < m)%nat -> sq_rd m i j = Done (j + i * m)%nat.
Proof. intros m i j Hi Hj. unfold sq_rd. destruct (Nat.ltb_spec (j + i * m) (m * m)); [reflexivity|]. nia. Qed.
Lemma sq_fold : forall m (M x : nat -> R) i n e, (i < m)%nat -> (n <= m)%nat ->
  fold_left (fun acc j => obnd acc (fun e => obnd (sq_rd m i j) (fun p => Done (e + M p * x j)))) (List.seq 0 n) (Done e)
  = Done (e + rsum n (fun j => M (j + i * m)%nat * x j)).
Proof.
  intros m M x i n. induction n as [|n IH]; intros e Hi Hn; [cbn; f_equal; ring|].
  rewrite seq_S, fold_left_app, IH by lia. cbn [fold_left obnd Nat.add]. rewrite sq_in by lia. cbn [obnd rsum]. f_equal. ring.
Qed.
Lemma linear_lists : forall m M tau0 n h sl i k, (i <= k)%nat -> (k < n)%nat ->
  (~ (m = length tau0 /\ n = length tau0) ->
     gl_row m M tau0 n sl k = Refused /\ gl_tau_l m tau0 n h k = Refused /\ sl_tau_l m M tau0 n h i k = Refused)
  /\ (m = length tau0 /\ n = length tau0 ->
     gl_row m M tau0 n sl k = Done (rsum n (fun j => M (j + k * n)%nat * sl j))
     /\ gl_tau_l m tau0 n h k = Done (h k + nth k tau0 0)
     /\ sl_tau_l m M tau0 n h i k = Done (rsum n (fun j => M (j + i * n)%nat * h j) + nth k tau0 0)).
Proof.
  intros m M tau0 n h sl i k Hi Hk. unfold gl_row, gl_tau_l, sl_tau_l, check.
  destruct (Nat.eqb_spec m (length tau0)) as [E|E]; [destruct (Nat.eqb_spec n (length tau0)) as [E'|E']|].
  - split; [intros H; now destruct H|]. intros _. subst m. rewrite <- E'.
    rewrite (sq_fold n M sl k n) by lia. rewrite (sq_fold n M h i n) by lia. cbn [obnd]. rewrite (rd_in _ tau0 0) by lia. cbn [obnd].
    repeat split; f_equal; ring.
  - split; [repeat split|]. intros [_ H]. contradiction.
  - split; [repeat split|]. intros [H _]. contradiction.
Qed.

(** ** LANLTiModel *)
Lemma lanl_equal : forall p, ll_ok p = true <-> (ll_m p = length (ll_k1 p) /\ length (ll_tau0 p) = length (ll_k1 p) + length (ll_k1 p))%nat.
Proof.
  intros p. unfold ll_ok. rewrite Bool.andb_true_iff, !Nat.eqb_eq. lia.
Qed.
Lemma ll_fold : forall p twin (b h : vec) k n v, (length (ll_k1 p) <= k)%nat -> (k - length (ll_k1 p) < ll_m p)%nat ->
  (forall j, (j < n)%nat -> twin j = false -> (j < ll_m p)%nat) ->
  exists w, fold_left (fun acc k2 => obnd acc (fun v => if twin k2 then Done v else
                if Rlt_dec 0 (h k2) then
                  if Nat.ltb k (length (ll_k1 p)) then Outside
                  else obnd (sq_rd (ll_m p) (k - length (ll_k1 p)) k2) (fun q => Done (v + ll_C p q * b k2 * h k2 * h k2))
                else Done v)) (List.seq 0 n) (Done v) = Done w.
Proof.
  intros p twin b h k n. induction n as [|n IH]; intros v Hk Hr Hs; [exists v; reflexivity|].
  rewrite seq_S, fold_left_app. destruct (IH v Hk Hr) as [w ->]; [intros; apply Hs; [lia|assumption]|].
  cbn [fold_left obnd Nat.add]. destruct (twin n) eqn:Tn; [exists w; reflexivity|].
  destruct (Rlt_dec 0 (h n)); [|exists w; reflexivity].
  destruct (Nat.ltb_spec k (length (ll_k1 p))); [lia|]. assert (Hn : (n < ll_m p)%nat) by (apply Hs; [lia | exact Tn]). rewrite sq_in by lia. cbn [obnd]. eexists. reflexivity.
Qed.
Lemma lanl_tau_lists : forall p n twin, ll_ok p = true -> n = length (ll_tau0 p) -> slips_first (length (ll_k1 p)) twin ->
  ((forall b h k, (k < n)%nat -> safe (ll_tau p n twin b h k)) <-> (length (ll_tau0 p) <= length (ll_mu p))%nat).
Proof.
  intros p n twin OK En SF. pose proof (proj1 (lanl_equal p) OK) as [Em Et].
  unfold safe, ll_tau, check. rewrite OK. rewrite (proj2 (Nat.eqb_eq n (length (ll_tau0 p))) En). split.
  - intros H. destruct (le_lt_dec (length (ll_tau0 p)) (length (ll_mu p))) as [|L]; [assumption|]. exfalso.
    specialize (H (fun _ => 0) (fun _ => 0) (length (ll_mu p))). apply H; [lia|]. clear H.
    destruct (twin (length (ll_mu p))) eqn:Tk.
    + destruct (ll_fold p twin (fun _ => 0) (fun _ => 0) (length (ll_mu p)) n 0) as [w ->].
      * rewrite SF in Tk. apply Nat.leb_le in Tk. exact Tk.
      * lia.
      * intros j Hj Tj. rewrite SF in Tj. apply Nat.leb_gt in Tj. lia.
      * cbn [obnd]. rewrite rd_out by lia. reflexivity.
    + rewrite rd_out by lia. reflexivity.
  - intros L b h k K. destruct (twin k) eqn:Tk.
    + destruct (ll_fold p twin b h k n 0) as [w ->].
      * rewrite SF in Tk. apply Nat.leb_le in Tk. exact Tk.
      * rewrite SF in Tk. apply Nat.leb_le in Tk. lia.
      * intros j Hj Tj. rewrite SF in Tj. apply Nat.leb_gt in Tj. lia.
      * cbn [obnd]. rewrite (rd_in _ (ll_mu p) 0), (rd_in _ (ll_tau0 p) 0) by lia. discriminate.
    + rewrite (rd_in _ (ll_mu p) 0) by lia. cbn [obnd]. rewrite (rd_in _ (ll_tau0 p) 0) by lia. discriminate.
Qed.
Lemma lanl_row_lists : forall p n twin, ll_ok p = true -> n = length (ll_tau0 p) -> slips_first (length (ll_k1 p)) twin ->
  ((forall h sl k, (k < n)%nat -> safe (ll_row p n twin h sl k)) <-> (length (ll_k1 p) <= length (ll_k2 p))%nat).
Proof.
  intros p n twin OK En SF. pose proof (proj1 (lanl_equal p) OK) as [Em Et].
  unfold safe, ll_row, check. rewrite OK. rewrite (proj2 (Nat.eqb_eq n (length (ll_tau0 p))) En). split.
  - intros H. destruct (le_lt_dec (length (ll_k1 p)) (length (ll_k2 p))) as [|L]; [assumption|]. exfalso.
    specialize (H (fun _ => 0) (fun _ => 0) (length (ll_k2 p))). apply H; [lia|]. clear H.
    rewrite SF. destruct (Nat.leb_spec (length (ll_k1 p)) (length (ll_k2 p))); [lia|].
    rewrite (rd_in _ (ll_k1 p) 0) by lia. cbn [obnd]. rewrite rd_out by lia. reflexivity.
  - intros L h sl k K. rewrite SF. destruct (Nat.leb_spec (length (ll_k1 p)) k); [discriminate|].
    rewrite (rd_in _ (ll_k1 p) 0), (rd_in _ (ll_k2 p) 0) by lia. discriminate.
Qed.
(* a twin that the lattice lists among the first ns systems *)
Lemma ll_fold_bad : forall p twin (b h : vec) k n k2 v, (k < length (ll_k1 p))%nat -> (k2 < n)%nat -> twin k2 = false -> 0 < h k2 ->
  fold_left (fun acc k2 => obnd acc (fun v => if twin k2 then Done v else
                if Rlt_dec 0 (h k2) then
                  if Nat.ltb k (length (ll_k1 p)) then Outside
                  else obnd (sq_rd (ll_m p) (k - length (ll_k1 p)) k2) (fun q => Done (v + ll_C p q * b k2 * h k2 * h k2))
                else Done v)) (List.seq 0 n) (Done v) = Outside.
Proof.
  intros p twin b h k n k2 v Hk K2 T2 H2.
  assert (P : forall n, (exists w, fold_left (fun acc k2 => obnd acc (fun v => if twin k2 then Done v else
                if Rlt_dec 0 (h k2) then
                  if Nat.ltb k (length (ll_k1 p)) then Outside
                  else obnd (sq_rd (ll_m p) (k - length (ll_k1 p)) k2) (fun q => Done (v + ll_C p q * b k2 * h k2 * h k2))
                else Done v)) (List.seq 0 n) (Done v) = Done w /\ (n <= k2)%nat)
            \/ fold_left (fun acc k2 => obnd acc (fun v => if twin k2 then Done v else
                if Rlt_dec 0 (h k2) then
                  if Nat.ltb k (length (ll_k1 p)) then Outside
                  else obnd (sq_rd (ll_m p) (k - length (ll_k1 p)) k2) (fun q => Done (v + ll_C p q * b k2 * h k2 * h k2))
                else Done v)) (List.seq 0 n) (Done v) = Outside).
  { clear K2 n. induction n as [|n IH]; [left; exists v; split; [reflexivity | lia]|].
    rewrite seq_S, fold_left_app. destruct IH as [[w [-> Ln]]| ->]; [|right; reflexivity].
    cbn [fold_left obnd Nat.add]. destruct (Nat.ltb_spec k (length (ll_k1 p))); [|lia].
    destruct (Nat.eq_dec n k2) as [->|Ne].
    - right. rewrite T2. destruct (Rlt_dec 0 (h k2)); [reflexivity | contradiction].
    - destruct (twin n); [left; exists w; split; [reflexivity | lia]|].
      destruct (Rlt_dec 0 (h n)); [right; reflexivity | left; exists w; split; [reflexivity | lia]]. }
  destruct (P n) as [[w [_ L]]|E]; [lia | exact E].
Qed.
Lemma lanl_twin_first : forall p n twin b h k k2, ll_ok p = true -> n = length (ll_tau0 p) ->
  twin k = true -> (k < length (ll_k1 p))%nat -> twin k2 = false -> (k2 < n)%nat -> 0 < h k2 ->
  ll_tau p n twin b h k = Outside.
Proof.
  intros p n twin b h k k2 OK En Tk Hk T2 K2 H2. unfold ll_tau, check. rewrite OK, (proj2 (Nat.eqb_eq n (length (ll_tau0 p))) En), Tk.
  rewrite (ll_fold_bad p twin b h k n k2) by assumption. reflexivity.
Qed.

(** ** HuCocksPrecipitationModel *)
Lemma hucocks_lists : forall c0 cp ceq kT f, safe (hp_Gv c0 cp ceq kT f) <-> (length c0 <= length cp)%nat.
Proof.
  intros c0 cp ceq kT f. unfold safe, hp_Gv. split.
  - intros H. destruct (le_lt_dec (length c0) (length cp)) as [|L]; [assumption|]. exfalso. apply H. unfold hp_c.
    rewrite (each_safe _ _ _ _ (length cp)); [reflexivity | | apply in_seq; lia |].
    + intros i. apply bnd_ref; [apply rd_ref|]. intros a. apply bnd_ref; [apply rd_ref|]. discriminate.
    + rewrite (rd_in _ c0 0) by lia. cbn [obnd]. rewrite rd_out by lia. reflexivity.
  - intros L. unfold hp_c. rewrite (each_done _ _ _ (fun i => (nth i c0 0 - f * nth i cp 0) / (1 - f))); [discriminate|].
    intros i Hi. apply in_seq in Hi. rewrite (rd_in _ c0 0), (rd_in _ cp 0) by lia. reflexivity.
Qed.
Lemma prods_ones : forall l k, prods (l ++ repeat 1 k) = prods l.
Proof.
  intros l k. unfold prods. rewrite fold_left_app. generalize (fold_left Rmult l 1). induction k as [|k IH]; intros x; cbn [repeat fold_left]; [reflexivity|].
  rewrite Rmult_1_r. apply IH.
Qed.
Lemma hucocks_short : forall c0 cp ceq kT f k, hp_Gv c0 cp ceq kT f = hp_Gv c0 cp (ceq ++ repeat 1 k) kT f.
Proof. intros. unfold hp_Gv. rewrite prods_ones. reflexivity. Qed.
