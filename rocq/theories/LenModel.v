(** Objects built from several lists: which entries of the lists the constructors and the functions
    that use them read, and what they do when the lengths do not fit.
    src/hardening.cxx, src/creep.cxx, src/models.cxx, src/damage.cxx, src/cp/slipharden.cxx,
    src/cp/hucocks.cxx.

    Every read of a std::vector is explicit here: reading past the end of a vector is undefined
    behaviour in C++ and is the separate outcome [Outside], apart from an exception, [Refused].
    Simplified: an Interpolate is the function it computes; [size_t] arithmetic does not wrap,
    except where the comment says so. *)
From Verif Require Import Base NemlMathModel HardModel DamageModel.
From Coq Require Import List Arith Lia.
Import ListNotations.
Open Scope R_scope.
Open Scope list_scope.

(** What a call does: C++ semantics of std::vector::operator[] and of throw; no NEML code *)
Inductive out (A : Type) := Done (a : A) | Refused | Outside.
Arguments Done {A} a.
Arguments Refused {A}.
Arguments Outside {A}.

(** std::vector::operator[]; no NEML code *)
Definition rd {A} (l : list A) (i : nat) : out A := match nth_error l i with Some x => Done x | None => Outside end.
(** one statement after another; no NEML code *)
Definition obnd {A B} (x : out A) (f : A -> out B) : out B := match x with Done a => f a | Refused => Refused | Outside => Outside end.
(** a for loop that appends one result for every index; no NEML code *)
Fixpoint each {A B} (f : A -> out B) (l : list A) : out (list B) :=
  match l with
  | [] => Done []
  | x :: r => obnd (f x) (fun y => obnd (each f r) (fun ys => Done (y :: ys)))
  end.
(** a check that throws; no NEML code *)
Definition check {A} (b : bool) (x : out A) : out A := if b then x else Refused.

(** ** Chaboche and ChabocheVoceRecovery *)
(** the lists of Chaboche, src/hardening.cxx:599-611, and of ChabocheVoceRecovery, 961-977: the
    constructors check nothing and the number of backstresses is the length of C *)
Record chlists := { cl_C : list (R -> R); cl_g : list gammam; cl_A : list (R -> R); cl_a : list (R -> R) }.
(** n_ = c_.size(), src/hardening.cxx:603 and 970 *)
Definition cl_n (p : chlists) : nat := length (cl_C p).
(** eval_vector, src/interpolate.cxx:618-626 *)
Definition eval_vector (l : list (R -> R)) (T : R) : list R := map (fun f => f T) l.
(** backstress_, src/hardening.cxx:948-956 and 1331-1339 *)
Definition cl_back (p : chlists) (al : vec) : vec := fun j => rsum (cl_n p) (fun i => al (S (i * 6 + j))).
(** Chaboche::h, src/hardening.cxx:687-710: the rows of the backstresses, one list of six per backstress *)
Definition cl_h (p : chlists) (s al : vec) (T : R) : out (list (list R)) :=
  let nv := normalize_vec 6 (vadd (dev_vec s) (cl_back p al)) in
  let c := eval_vector (cl_C p) T in
  each (fun i => each (fun j => obnd (rd c i) (fun ci => obnd (rd (cl_g p) i) (fun gi =>
          Done (- 2 / 3 * ci * nv j - sqrt (2 / 3) * gm gi (al 0%nat) T * al (S (i * 6 + j)))))) (seq 0 6)) (seq 0 (cl_n p)).
(** Chaboche::h_time, src/hardening.cxx:829-847 *)
Definition cl_h_time (p : chlists) (al : vec) (T : R) : out (list (list R)) :=
  let A := eval_vector (cl_A p) T in
  let a := eval_vector (cl_a p) T in
  each (fun i => let nXi := norm2 6 (fun j => al (S (i * 6 + j))) in
          each (fun j => obnd (rd A i) (fun Ai => obnd (rd a i) (fun ai =>
            Done (- Ai * sqrt (3 / 2) * cpow nXi (ai - 1) * al (S (i * 6 + j)))))) (seq 0 6)) (seq 0 (cl_n p)).

(** ** RegionKMCreep *)
(** the loop of select_region_, src/creep.cxx:356-362, from index i *)
Fixpoint rk_loop (cuts : list R) (A B : list (R -> R)) (i : nat) (neq T : R) : out (R * R) :=
  match cuts with
  | [] => obnd (rd A i) (fun a => obnd (rd B i) (fun b => Done (a T, b T)))   (* 363-366 *)
  | c :: r => if Rlt_dec c neq then obnd (rd A (S i)) (fun a => obnd (rd B (S i)) (fun b => Done (a T, b T)))
              else rk_loop r A B (S i) neq T
  end.
(** select_region_, src/creep.cxx:340-368; the constructor (271-284) checks nothing *)
Definition rk_select (cuts : list R) (A B : list (R -> R)) (neq T : R) : out (R * R) :=
  if Nat.eqb (length A) 1 then obnd (rd A 0) (fun a => obnd (rd B 0) (fun b => Done (a T, b T)))
  else obnd (rd cuts 0) (fun c0 =>
         if Rlt_dec neq c0 then obnd (rd A 0) (fun a => obnd (rd B 0) (fun b => Done (a T, b T)))
         else rk_loop cuts A B 0 neq T).

(** ** KMRegimeModel *)
(** the constructor, src/models.cxx:1609-1619: cache_history_ asks models_[0] for its variables *)
Definition kr_make {M} (models : list M) : out unit := obnd (rd models 0) (fun _ => Done tt).
(** the loop of update_sd_actual, src/models.cxx:1665-1674, from index i: the index of the model
    that is used; models_.back() of an empty vector is a read outside it *)
Fixpoint kr_loop {M} (gs : list R) (models : list M) (i : nat) (g : R) : out nat :=
  match gs with
  | [] => match models with [] => Outside | _ :: _ => Done (length models - 1)%nat end
  | gi :: r => if Rlt_dec g gi then obnd (rd models i) (fun _ => Done i) else kr_loop r models (S i) g
  end.
(** KMRegimeModel: built, then updated at the activation energy g, src/models.cxx:1609-1675 *)
Definition kr_update {M} (gs : list R) (models : list M) (g : R) : out nat :=
  obnd (kr_make models) (fun _ => kr_loop gs models 0 g).

(** ** Effective stresses made of several *)
(** SumSeveralEffectiveStress: the constructor (src/damage.cxx:888-896), then effective (917-926);
    simplified: the measures are given by their values at the stress *)
Definition ss_effective (ms ws : list R) : out R :=
  check (Nat.eqb (length ms) (length ws))
    (fold_left (fun acc i => obnd acc (fun e => obnd (rd ms i) (fun v => obnd (rd ws i) (fun w => Done (e + w * v)))))
       (seq 0 (length ms)) (Done 0)).
(** select_, src/damage.cxx:871-886: the index of the largest measure; None is the start,
    value = -infinity and ind = -1 *)
Fixpoint ms_loop (ms : list R) (i : nat) (best : option (nat * R)) : option (nat * R) :=
  match ms with
  | [] => best
  | v :: r => ms_loop r (S i) (match best with
                               | None => Some (i, v)
                               | Some (k, b) => if Rlt_dec b v then Some (i, v) else Some (k, b)
                               end)
  end.
(** deffective, src/damage.cxx:862-869: the measure whose derivative is taken; ind = -1, as a size_t,
    is outside every vector *)
Definition ms_pick (ms : list R) : out nat :=
  match ms_loop ms 0 None with Some (k, _) => obnd (rd ms k) (fun _ => Done k) | None => Outside end.

(** ** Slip hardening: the lattice has [n] slip systems in all; the values are those at one temperature *)
(** FixedStrengthHardening::hist_to_tau, src/cp/slipharden.cxx:102-108, for the system with flat index k *)
Definition fs_tau (strengths : list R) (k : nat) : out R := rd strengths k.
(** VocePerSystemHardening: consistency_ (src/cp/slipharden.cxx:330-334) then hist (239-263), the
    row of the system k; h are the strengths, sl the slip rates *)
Definition vp_row (init ks sat m : list R) (n : nat) (h sl : vec) (k : nat) : out R :=
  check (Nat.eqb n (length init))
    (obnd (rd ks k) (fun kk => obnd (rd init k) (fun i0 => obnd (rd sat k) (fun sa => obnd (rd m k) (fun mm =>
       Done (kk * cpow (1 - (h k - i0) / (sa - i0)) mm * sl k)))))).
(** VocePerSystemHardening::d_hist_d_s, src/cp/slipharden.cxx:265-288: no check; varnames_ has as many
    entries as initial_; d is one component of the derivative of the slip rate *)
Definition vp_row_s (init ks sat m : list R) (n : nat) (h : vec) (d : vec) (k : nat) : out R :=
  obnd (rd init k) (fun _ => obnd (rd ks k) (fun kk => obnd (rd init k) (fun i0 => obnd (rd sat k) (fun sa => obnd (rd m k) (fun mm =>
       Done (kk * cpow (1 - (h k - i0) / (sa - i0)) mm * d k)))))).
(** FASlipHardening: consistency_ (src/cp/slipharden.cxx:505-509) then hist (421-445) *)
Definition fa_row (ks sat : list R) (n : nat) (h sl : vec) (k : nat) : out R :=
  check (Nat.eqb n (length ks))
    (obnd (rd ks k) (fun kk => obnd (rd sat k) (fun sa => Done (kk * (sl k - h k / sa * Rabs (sl k)))))).
(** a SquareMatrix of rank m: reading entry (i,j), src/math/matrix.cxx:75-78, of its m*m numbers *)
Definition sq_rd (m : nat) (i j : nat) : out nat := if Nat.ltb (j + i * m) (m * m) then Done (j + i * m)%nat else Outside.
(** GeneralLinearHardening: the constructor (src/cp/slipharden.cxx:511-527), consistency (733-738),
    hist (602-630): row i of the matrix times the slip rates; M are the entries of a matrix of rank m *)
Definition gl_row (m : nat) (M : nat -> R) (tau0 : list R) (n : nat) (sl : vec) (i : nat) : out R :=
  check (Nat.eqb m (length tau0)) (check (Nat.eqb n (length tau0))
    (fold_left (fun acc j => obnd acc (fun e => obnd (sq_rd m i j) (fun p => Done (e + M p * sl j)))) (seq 0 n) (Done 0))).
(** GeneralLinearHardening::hist_to_tau, src/cp/slipharden.cxx:580-587 *)
Definition gl_tau_l (m : nat) (tau0 : list R) (n : nat) (h : vec) (k : nat) : out R :=
  check (Nat.eqb m (length tau0)) (check (Nat.eqb n (length tau0)) (obnd (rd tau0 k) (fun t => Done (h k + t)))).
(** SimpleLinearHardening: the constructor (src/cp/slipharden.cxx:740-755), hist_to_tau (805-817); i is
    the index of the system in its group, k its flat index *)
Definition sl_tau_l (m : nat) (G : nat -> R) (tau0 : list R) (n : nat) (h : vec) (i k : nat) : out R :=
  check (Nat.eqb m (length tau0)) (check (Nat.eqb n (length tau0))
    (obnd (fold_left (fun acc j => obnd acc (fun e => obnd (sq_rd m i j) (fun p => Done (e + G p * h j)))) (seq 0 (length tau0)) (Done 0))
       (fun v => obnd (rd tau0 k) (fun t => Done (v + t))))).

(** the lists of LANLTiModel and the rank of its matrix, src/cp/slipharden.cxx:935-963; the entries at one temperature *)
Record lalists := { ll_tau0 : list R; ll_m : nat; ll_C : nat -> R; ll_mu : list R; ll_k1 : list R; ll_k2 : list R; ll_X : R }.
(** LANLTiModel's constructor, src/cp/slipharden.cxx:949-951: nslip_ is k1_.size(), ntwin_ is
    tau_0_.size()-k1_.size() (include/cp/slipharden.h:496-497); when k1 is longer than tau_0 the
    difference of two size_t is larger than any vector and the check fails, as it does here *)
Definition ll_ok (p : lalists) : bool :=
  andb (Nat.eqb (ll_m p) (length (ll_k1 p))) (Nat.eqb (ll_m p) (length (ll_tau0 p) - length (ll_k1 p))).
(** LANLTiModel::hist_to_tau, src/cp/slipharden.cxx:1024-1052, for the system with flat index k;
    twin tells which systems are twins, b are the lengths of the Burgers vectors; for a twin before
    the last slip system L.flat(g,i)-nslip_() is negative, as a size_t outside the matrix *)
Definition ll_tau (p : lalists) (n : nat) (twin : nat -> bool) (b h : vec) (k : nat) : out R :=
  check (ll_ok p) (check (Nat.eqb n (length (ll_tau0 p)))
    (if twin k then
       obnd (fold_left (fun acc k2 => obnd acc (fun v => if twin k2 then Done v else
                if Rlt_dec 0 (h k2) then
                  if Nat.ltb k (length (ll_k1 p)) then Outside
                  else obnd (sq_rd (ll_m p) (k - length (ll_k1 p)) k2) (fun q => Done (v + ll_C p q * b k2 * h k2 * h k2))
                else Done v)) (seq 0 n) (Done 0))
         (fun v => obnd (rd (ll_mu p) k) (fun mu => obnd (rd (ll_tau0 p) k) (fun t => Done (v * b k * mu + t))))
     else obnd (rd (ll_mu p) k) (fun mu => obnd (rd (ll_tau0 p) k) (fun t => Done (ll_X p * b k * mu * h k + t))))).
(** LANLTiModel::hist, src/cp/slipharden.cxx:1088-1115, the row of the system k *)
Definition ll_row (p : lalists) (n : nat) (twin : nat -> bool) (h sl : vec) (k : nat) : out R :=
  check (ll_ok p) (check (Nat.eqb n (length (ll_tau0 p)))
    (if twin k then Done (Rabs (sl k))
     else obnd (rd (ll_k1 p) k) (fun a => obnd (rd (ll_k2 p) k) (fun c => Done (1 / 2 * (a - c * h k) * Rabs (sl k)))))).

(** ** HuCocksPrecipitationModel *)
(** c, src/cp/hucocks.cxx:418-425; the values at one temperature *)
Definition hp_c (c0 cp : list R) (f : R) : out (list R) :=
  each (fun i => obnd (rd c0 i) (fun a => obnd (rd cp i) (fun b => Done ((a - f * b) / (1 - f))))) (seq 0 (length c0)).
(** the product of a vector, src/cp/hucocks.cxx:448-456 *)
Definition prods (l : list R) : R := fold_left Rmult l 1.
(** Gv, src/cp/hucocks.cxx:442-459; kT is kboltz * T / vm *)
Definition hp_Gv (c0 cp ceq : list R) (kT f : R) : out R :=
  obnd (hp_c c0 cp f) (fun c => Done (- kT * ln (prods c / prods ceq))).
