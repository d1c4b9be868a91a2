(** Property C146: determinants, cofactors and adjugates in double and float. *)
From Coq Require Import ZArith Reals Lra Psatz.
From Flocq Require Import Core.Core IEEE754.BinarySingleNaN IEEE754.Binary IEEE754.Bits.
From Verif Require Import InstF InstF32 MMatrix LHom LMat6.
From Verif Require PFloat LFloat LErr PF32.
From Verif Require Import LExprF LDet.
Local Open Scope R_scope.
Local Open Scope list_scope.
Local Notation bp := (bpow radix2).

Lemma pow_bp k : 2 ^ k = bp (Z.of_nat k).
Proof. induction k as [|k IH]; [reflexivity|]. rewrite Nat2Z.inj_succ, <- Z.add_1_l, bpow_plus, <- IH. reflexivity. Qed.
Lemma inv_pow_bp k : / 2 ^ k = bp (- Z.of_nat k).
Proof. rewrite pow_bp, bpow_opp. reflexivity. Qed.

(** The cells outside the matrix do not matter. *)
Definition inside {T} (z : T) (n : nat) (f : nat -> nat -> T) (i j : nat) : T :=
  if (i <? n)%nat && (j <? n)%nat then f i j else z.
Lemma inside_in {T} (z : T) n f i j : (i < n)%nat -> (j < n)%nat -> inside z n f i j = f i j.
Proof. intros Hi Hj. unfold inside. apply Nat.ltb_lt in Hi, Hj. rewrite Hi, Hj. reflexivity. Qed.
Lemma inside_rep {T} (z : T) n m f : repM n n m f -> repM n n m (inside z n f).
Proof. intros H. eapply repM_ext; [exact H|]. intros i j Hi Hj. symmetry. apply inside_in; assumption. Qed.
Lemma inside_ok n f k : (forall i j, (i < n)%nat -> (j < n)%nat -> PFloat.fin (f i j) /\ Rabs (PFloat.val (f i j)) <= 2 ^ k) ->
  forall i j, LErr.okf (Z.of_nat k) (inside f64_zero n f i j).
Proof.
  intros H i j. rewrite pow_bp in H. unfold inside. destruct (Nat.ltb_spec i n), (Nat.ltb_spec j n); cbn [andb]; try (apply H; assumption).
  all: split; [reflexivity|]; change (PFloat.val f64_zero) with 0; rewrite Rabs_R0; apply bpow_ge_0.
Qed.
Lemma inside_ok32 n f k : (forall i j, (i < n)%nat -> (j < n)%nat -> PF32.fin (f i j) /\ Rabs (PF32.val (f i j)) <= 2 ^ k) ->
  forall i j, okf32 (Z.of_nat k) (inside f32_zero n f i j).
Proof.
  intros H i j. rewrite pow_bp in H. unfold inside. destruct (Nat.ltb_spec i n), (Nat.ltb_spec j n); cbn [andb]; try (apply H; assumption).
  all: split; [reflexivity|]; change (PF32.val f32_zero) with 0; rewrite Rabs_R0; apply bpow_ge_0.
Qed.

Definition dunits (n : nat) : nat := match n with 2 => 3 | 3 => 6 | 4 => 27 | _ => 1 end%nat.
Lemma dunits_R n : INR (dunits n) = det_units n.
Proof. destruct n as [|[|[|[|[|n]]]]]; cbn; lra. Qed.
Lemma det_shape n : (1 <= n <= 4)%nat -> (dep (det_expr n) < dunits n)%nat /\ (deg (det_expr n) <= 4)%nat /\
  (off (det_expr n) <= 23)%nat /\ (udeg (det_expr n) <= 3)%nat /\ (uoff (det_expr n) <= 29)%nat.
Proof. intros Hn. destruct n as [|[|[|[|[|n]]]]]; try lia; vm_compute; repeat constructor. Qed.
Lemma units_small n : (dunits n <= 1000)%nat.
Proof. destruct n as [|[|[|[|[|n]]]]]; cbn; lia. Qed.

(** C146.  det() of a matrix of doubles: the result is a number (no overflow) and
    differs from the determinant of the given cells by at most a few units of
    rounding times the sum of the absolute values of all its terms, plus a
    negligible loss to underflow. *)
Theorem C146_det_double :
  forall (cfg : Cfg) (n k : nat) (m : list f64) (f : nat -> nat -> f64),
  (1 <= n <= 4)%nat -> (k <= 250)%nat -> repM n n m f ->
  (forall i j, (i < n)%nat -> (j < n)%nat -> PFloat.fin (f i j) /\ Rabs (PFloat.val (f i j)) <= 2 ^ k) ->
  let A i j := PFloat.val (f i j) in
  exists d, mat_det (ST := F64Scalar) n m = Ok d /\ PFloat.fin d /\
    Rabs (PFloat.val d - detR n A) <= det_units n / 2 ^ 53 * permR n (absM A) + 2 ^ (3 * k) / 2 ^ 1045.
Proof.
  intros cfg n k m f Hn Hk Hm HC A. set (env := inside f64_zero n f).
  pose proof (inside_ok n f k HC) as OK. fold env in OK.
  destruct (det_shape n Hn) as (S1 & S2 & S3 & S4 & S5).
  destruct (eval64 (Z.of_nat k) env (det_expr n) (dep (det_expr n)) (dunits n) (3 * Z.of_nat k + 30)) as ((F & _) & E);
    [lia|exact OK|lia|exact S1|apply units_small|unfold bnd; nia|unfold ubd; nia|].
  exists (eval (ST := F64Scalar) env (det_expr n)). split; [apply mat_det_eval; [exact Hn|apply inside_rep; exact Hm]|]. split; [exact F|].
  rewrite (det_evalR n _ Hn), (det_evalA n _ Hn), dunits_R in E.
  rewrite (detR_ext n _ A) in E by (intros; unfold env; rewrite inside_in by assumption; reflexivity).
  rewrite (permR_ext n _ (absM A)) in E by (intros; unfold absM, env; rewrite inside_in by assumption; reflexivity).
  eapply Rle_trans; [exact E|]. apply Req_le. f_equal. unfold Rdiv. rewrite (pow_bp (3 * k)), inv_pow_bp, <- bpow_plus. f_equal. lia.
Qed.
Print Assumptions C146_det_double.

(** The same for floats. *)
Theorem C146_det_float :
  forall (cfg : Cfg) (n k : nat) (m : list f32) (f : nat -> nat -> f32),
  (1 <= n <= 4)%nat -> (k <= 26)%nat -> repM n n m f ->
  (forall i j, (i < n)%nat -> (j < n)%nat -> PF32.fin (f i j) /\ Rabs (PF32.val (f i j)) <= 2 ^ k) ->
  let A i j := PF32.val (f i j) in
  exists d, mat_det (ST := F32Scalar) n m = Ok d /\ PF32.fin d /\
    Rabs (PF32.val d - detR n A) <= det_units n / 2 ^ 24 * permR n (absM A) + 2 ^ (3 * k) / 2 ^ 120.
Proof.
  intros cfg n k m f Hn Hk Hm HC A. set (env := inside f32_zero n f).
  pose proof (inside_ok32 n f k HC) as OK. fold env in OK.
  destruct (det_shape n Hn) as (S1 & S2 & S3 & S4 & S5).
  destruct (eval32 (Z.of_nat k) env (det_expr n) (dep (det_expr n)) (dunits n) (3 * Z.of_nat k + 30)) as ((F & _) & E);
    [lia|exact OK|lia|exact S1|apply units_small|unfold bnd; nia|unfold ubd; nia|].
  exists (eval (ST := F32Scalar) env (det_expr n)). split; [apply mat_det_eval; [exact Hn|apply inside_rep; exact Hm]|]. split; [exact F|].
  rewrite (det_evalR n _ Hn), (det_evalA n _ Hn), dunits_R in E.
  rewrite (detR_ext n _ A) in E by (intros; unfold env; rewrite inside_in by assumption; reflexivity).
  rewrite (permR_ext n _ (absM A)) in E by (intros; unfold absM, env; rewrite inside_in by assumption; reflexivity).
  eapply Rle_trans; [exact E|]. apply Req_le. f_equal. unfold Rdiv. rewrite (pow_bp (3 * k)), inv_pow_bp, <- bpow_plus. f_equal. lia.
Qed.
Print Assumptions C146_det_float.

(** Cofactors and adjugate as lists of expressions. *)
Definition cof_expr (n : nat) : list expr :=
  match mat_get_cofactors (cfg := noSafe) (ST := ExprScalar) n (Val (vars n)) (vars n) with Ok l => l | _ => [] end.
Definition adjg_expr (n : nat) : list expr :=
  match mat_get_adjugate (cfg := noSafe) (ST := ExprScalar) n (Val (vars n)) (vars n) with Ok l => l | _ => [] end.
Section Generic.
Context {T : Type} {ST : Scalar T}.
Lemma cofactors_eval (cfg : Cfg) n m cof (env : nat -> nat -> T) : (2 <= n <= 4)%nat -> repM n n m env -> length cof = (n * n)%nat ->
  mat_get_cofactors n (Val m) cof = Ok (map (eval env) (cof_expr n)) /\
  mat_get_adjugate n (Val m) cof = Ok (map (eval env) (adjg_expr n)).
Proof.
  intros Hn Hm Hi. destruct (mat_rep n n cof Hi) as (g & Hg).
  destruct cfg as [[|]]; destruct n as [|[|[|[|[|n]]]]]; try lia; lit Hm; lit Hg; split; vm_compute; reflexivity.
Qed.
End Generic.
Lemma cof_shape n e : (2 <= n <= 4)%nat -> In e (cof_expr n ++ adjg_expr n) ->
  (dep e < dunits (n - 1))%nat /\ (deg e <= 3)%nat /\ (off e <= 3)%nat /\ (udeg e <= 2)%nat /\ (uoff e <= 7)%nat.
Proof.
  intros Hn. revert e. apply Forall_forall.
  destruct n as [|[|[|[|[|n]]]]]; try lia; vm_compute; repeat (constructor; [repeat constructor|]); constructor.
Qed.
Lemma cof_evalR n env i j : (2 <= n <= 4)%nat -> (i < n)%nat -> (j < n)%nat ->
  evalR env (nth (j * n + i) (cof_expr n) EZero) = cofR n env i j /\
  evalA env (nth (j * n + i) (cof_expr n) EZero) = permR (n - 1) (cutR (absM env) i j) /\
  nth (i * n + j) (adjg_expr n) EZero = nth (j * n + i) (cof_expr n) EZero.
Proof.
  intros Hn Hi Hj. destruct n as [|[|[|[|[|n]]]]]; try lia; cell4 i Hi; cell4 j Hj; unfold cofR; (split; [|split; [|vm_compute; reflexivity]]);
    match goal with |- ?g _ ?e = _ => let e' := eval vm_compute in e in change e with e' end; unfold absM;
    cbn -[IZR Rplus Rminus Rmult Ropp Rabs]; unfold minor0, cutR; cbn -[IZR Rplus Rminus Rmult Ropp Rabs]; ring.
Qed.
Lemma cof_len n : (2 <= n <= 4)%nat -> length (cof_expr n) = (n * n)%nat /\ length (adjg_expr n) = (n * n)%nat.
Proof. intros Hn. destruct n as [|[|[|[|[|n]]]]]; try lia; split; reflexivity. Qed.
Lemma cutR_inside n (A B : nat -> nat -> R) i j : (i < n)%nat -> (j < n)%nat ->
  (forall p q, (p < n)%nat -> (q < n)%nat -> A p q = B p q) ->
  forall p q, (p < n - 1)%nat -> (q < n - 1)%nat -> cutR A i j p q = cutR B i j p q.
Proof. intros Hi Hj H p q Hp Hq. unfold cutR. apply H; destruct (_ <? _)%nat; lia. Qed.

(** get_cofactors() and get_adjugate() of doubles: cell (i, j) of the cofactors,
    and cell (j, i) of the adjugate, is the signed minor (i, j) up to a few units
    of rounding. *)
Theorem C146_cofactors_double :
  forall (cfg : Cfg) (n k : nat) (m cof : list f64) (f : nat -> nat -> f64),
  (2 <= n <= 4)%nat -> (k <= 300)%nat -> repM n n m f -> length cof = (n * n)%nat ->
  (forall i j, (i < n)%nat -> (j < n)%nat -> PFloat.fin (f i j) /\ Rabs (PFloat.val (f i j)) <= 2 ^ k) ->
  let A i j := PFloat.val (f i j) in
  exists c a h, mat_get_cofactors (ST := F64Scalar) n (Val m) cof = Ok c /\
    mat_get_adjugate (ST := F64Scalar) n (Val m) cof = Ok a /\
    repM n n c h /\ repM n n a (fun i j => h j i) /\
    forall i j, (i < n)%nat -> (j < n)%nat -> PFloat.fin (h i j) /\
      Rabs (PFloat.val (h i j) - cofR n A i j) <=
        det_units (n - 1) / 2 ^ 53 * permR (n - 1) (cutR (absM A) i j) + 2 ^ (2 * k) / 2 ^ 1067.
Proof.
  intros cfg n k m cof f Hn Hk Hm Hl HC A. set (env := inside f64_zero n f).
  pose proof (inside_ok n f k HC) as OK. fold env in OK.
  destruct (cofactors_eval (ST := F64Scalar) cfg n m cof env Hn (inside_rep f64_zero n m f Hm) Hl) as (E1 & E2).
  destruct (cof_len n Hn) as (L1 & L2).
  set (h i j := eval (ST := F64Scalar) env (nth (j * n + i) (cof_expr n) EZero)).
  exists (map (eval (ST := F64Scalar) env) (cof_expr n)), (map (eval (ST := F64Scalar) env) (adjg_expr n)), h.
  split; [exact E1|]. split; [exact E2|].
  assert (IDX : forall i j, (i < n)%nat -> (j < n)%nat -> (j * n + i < n * n)%nat) by (intros; nia).
  split; [|split].
  - split; [rewrite map_length; exact L1|]. intros i j Hi Hj. rewrite nth_error_map.
    rewrite (nth_error_nth' (cof_expr n) EZero) by (rewrite L1; apply IDX; assumption). reflexivity.
  - split; [rewrite map_length; exact L2|]. intros i j Hi Hj. rewrite nth_error_map.
    rewrite (nth_error_nth' (adjg_expr n) EZero) by (rewrite L2; apply IDX; assumption). cbn [option_map]. f_equal.
    unfold h. f_equal. apply (cof_evalR n (fun _ _ => 0) j i Hn Hj Hi).
  - intros i j Hi Hj. unfold h. set (e := nth (j * n + i) (cof_expr n) EZero).
    destruct (cof_shape n e Hn) as (S1 & S2 & S3 & S4 & S5).
    { apply in_or_app. left. apply nth_In. rewrite L1. apply IDX; assumption. }
    destruct (eval64 (Z.of_nat k) env e (dep e) (dunits (n - 1)) (2 * Z.of_nat k + 8)) as ((F & _) & E);
      [lia|exact OK|lia|exact S1|apply units_small|unfold bnd; nia|unfold ubd; nia|].
    split; [exact F|]. destruct (cof_evalR n (fun i j => PFloat.val (env i j)) i j Hn Hi Hj) as (V1 & V2 & _). fold e in V1, V2.
    rewrite V1, V2, dunits_R in E. unfold cofR in E |- *.
    rewrite (detR_ext (n - 1) _ (cutR A i j)) in E by (apply cutR_inside; [assumption..|]; intros p q Hp Hq; unfold env; rewrite inside_in by assumption; reflexivity).
    rewrite (permR_ext (n - 1) _ (cutR (absM A) i j)) in E
      by (apply cutR_inside; [assumption..|]; intros p q Hp Hq; unfold absM, env; rewrite inside_in by assumption; reflexivity).
    eapply Rle_trans; [exact E|]. apply Req_le. f_equal. unfold Rdiv. rewrite (pow_bp (2 * k)), inv_pow_bp, <- bpow_plus. f_equal. lia.
Qed.
Print Assumptions C146_cofactors_double.

Example C146_hypotheses_met :
  let m := [f64_two; f64_one; f64_one; f64_two] in
  repM 2 2 m (fun i j => nth (j * 2 + i) m f64_zero) /\
  (forall i j, (i < 2)%nat -> (j < 2)%nat ->
     PFloat.fin (nth (j * 2 + i) m f64_zero) /\ Rabs (PFloat.val (nth (j * 2 + i) m f64_zero)) <= 2 ^ 1) /\
  detR 2 (fun i j => PFloat.val (nth (j * 2 + i) m f64_zero)) = 3.
Proof.
  intros m. split; [apply repM_nth; reflexivity|]. split.
  - intros i j Hi Hj. destruct i as [|[|i]]; try lia; destruct j as [|[|j]]; try lia; (split; [reflexivity|]); cbn [nth m Nat.mul Nat.add];
      rewrite ?LFloat.val_one, ?LFloat.val_two, Rabs_pos_eq; cbn; lra.
  - rewrite detR_2. cbn [nth m Nat.mul Nat.add]. rewrite LFloat.val_one, LFloat.val_two. lra.
Qed.
