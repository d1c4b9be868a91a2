(** Determinants, minors and inverses of small matrices as expressions. *)
From Coq Require Import ZArith Reals Lra Psatz.
From Verif Require Import LHom.
From Verif Require Export LMat6 LExpr Spec11.
Local Open Scope R_scope.
Local Open Scope list_scope.

Lemma eval_hom {T} {ST : Scalar T} (env : nat -> nat -> T) : ring_rel ExprScalar ST (fun e x => x = eval env e).
Proof. unfold ring_rel. repeat split; cbn; intros; subst; reflexivity. Qed.
Lemma eval_R {lim : RLim} env e : eval env e = evalR env e.
Proof. induction e; cbn; congruence. Qed.

(** The n x n matrix of variables. *)
Definition vars (n : nat) : list expr := map (fun k => EVar (k mod n) (k / n)) (seq 0 (n * n)).
Lemma vars_rel {T} {ST : Scalar T} (env : nat -> nat -> T) n m : repM n n m env ->
  @relc _ _ (relc_list (fun e x => x = eval env e)) (vars n) m.
Proof.
  intros H. rewrite (repM_lit _ _ _ _ H). unfold vars. induction (seq 0 (n * n)); cbn; constructor; [reflexivity|exact IHl].
Qed.
(** The expression det() computes. *)
Definition noSafe : Cfg := Build_Cfg false.
Definition det_expr (n : nat) : expr :=
  match mat_det (cfg := noSafe) (ST := ExprScalar) n (vars n) with Ok e => e | _ => EZero end.
Lemma det_expr_ok (cfg : Cfg) n : (1 <= n <= 4)%nat -> mat_det (ST := ExprScalar) n (vars n) = Ok (det_expr n).
Proof. intros H. destruct cfg as [[|]]; destruct n as [|[|[|[|[|n]]]]]; try lia; vm_compute; reflexivity. Qed.
Lemma mat_det_eval {T} {ST : Scalar T} (cfg : Cfg) n m (env : nat -> nat -> T) : (1 <= n <= 4)%nat -> repM n n m env ->
  mat_det n m = Ok (eval env (det_expr n)).
Proof.
  intros Hn Hm. pose proof (h_mat_det (cfg := cfg) (fun e x => x = eval env e) (eval_hom env) n (vars n) m (vars_rel env n m Hm)) as H.
  rewrite (det_expr_ok cfg n Hn) in H. destruct (mat_det n m); cbn in H; try contradiction. f_equal. exact H.
Qed.
Lemma det_evalR n env : (1 <= n <= 4)%nat -> evalR env (det_expr n) = detR n env.
Proof.
  intros Hn. pose (lim := Build_RLim 1 1 Rlt_0_1 Rlt_0_1).
  pose proof (mat_det_eval noSafe n _ env Hn (repM_map_seq n n env)) as H.
  rewrite (mat_det_R n _ env Hn (repM_map_seq n n env)) in H. injection H as H. rewrite eval_R in H. symmetry. exact H.
Qed.
Lemma det_evalA n env : (1 <= n <= 4)%nat -> evalA env (det_expr n) = permR n (absM env).
Proof.
  intros Hn. destruct n as [|[|[|[|[|n]]]]]; try lia; unfold det_expr, absM; cbn -[IZR Rplus Rminus Rmult Ropp Rabs];
    unfold minor0; cbn -[IZR Rplus Rminus Rmult Ropp Rabs]; ring.
Qed.

(** The expressions of inverse(): the cells of the adjugate (column by column)
    and the determinant, the first row of the matrix times the first column of
    the adjugate (for 2 x 2 that of det()). *)
Definition adj_expr (n : nat) : list expr :=
  match n with
  | 2%nat => match mat_get_adjugate (cfg := noSafe) (ST := ExprScalar) 2 (Val (vars 2)) (vars 2) with Ok l => l | _ => [] end
  | _ => match mat_inverse (cfg := noSafe) (ST := ExprScalar) n (vars n) (vars n) EZero with Ok (_, l) => l | _ => [] end
  end.
Definition idet_expr (n : nat) : expr :=
  match n with
  | 3%nat => let c i := EMul (EVar 0 i) (nth i (adj_expr 3) EZero) in EAdd (EAdd (c 0%nat) (c 1%nat)) (c 2%nat)
  | 4%nat => let c i := EMul (EVar 0 i) (nth i (adj_expr 4) EZero) in EAdd (EAdd (EAdd (c 0%nat) (c 1%nat)) (c 2%nat)) (c 3%nat)
  | _ => det_expr n
  end.
Section I.
Context {T : Type} {ST : Scalar T}.
Definition inv_reject (n : nat) (d tol : T) : bool := if (n =? 2)%nat then sltb d tol else sleb d tol.
Lemma mat_inverse_eval (cfg : Cfg) n m inv (env : nat -> nat -> T) tol : (2 <= n <= 4)%nat -> repM n n m env ->
  length inv = (n * n)%nat ->
  mat_inverse n m inv tol =
    let d := eval env (idet_expr n) in
    if inv_reject n (sabs d) tol then Ok (false, if (n =? 2)%nat then inv else map (eval env) (adj_expr n))
    else detinv <- sdiv sone d ;; Ok (true, map (fun e => smul (eval env e) detinv) (adj_expr n)).
Proof.
  intros Hn Hm Hi. destruct (mat_rep n n inv Hi) as (g & Hg).
  destruct cfg as [[|]]; destruct n as [|[|[|[|[|n]]]]]; try lia; lit Hm; lit Hg; vm_compute; reflexivity.
Qed.
End I.
(** Cell (i, j) of the adjugate is the signed minor (j, i). *)
Lemma adj_evalR n env i j : (2 <= n <= 4)%nat -> (i < n)%nat -> (j < n)%nat ->
  evalR env (nth (j * n + i) (adj_expr n) EZero) = cofR n env j i.
Proof.
  intros Hn Hi Hj. destruct n as [|[|[|[|[|n]]]]]; try lia; cell4 i Hi; cell4 j Hj; unfold cofR;
    match goal with |- evalR _ ?e = _ => let e' := eval vm_compute in e in change e with e' end; dexp; ring.
Qed.
Lemma adj_evalA n env i j : (2 <= n <= 4)%nat -> (i < n)%nat -> (j < n)%nat ->
  evalA env (nth (j * n + i) (adj_expr n) EZero) = permR (n - 1) (cutR (absM env) j i).
Proof.
  intros Hn Hi Hj. destruct n as [|[|[|[|[|n]]]]]; try lia; cell4 i Hi; cell4 j Hj;
    match goal with |- evalA _ ?e = _ => let e' := eval vm_compute in e in change e with e' end;
    unfold absM; cbn -[IZR Rplus Rminus Rmult Ropp Rabs]; unfold minor0, cutR; cbn -[IZR Rplus Rminus Rmult Ropp Rabs]; ring.
Qed.
Lemma idet_evalR n env : (2 <= n <= 4)%nat -> evalR env (idet_expr n) = detR n env.
Proof.
  intros Hn. destruct n as [|[|[|[|[|n]]]]]; try lia;
    match goal with |- evalR _ ?e = _ => let e' := eval vm_compute in e in change e with e' end; dexp; ring.
Qed.
Lemma idet_evalA n env : (2 <= n <= 4)%nat -> evalA env (idet_expr n) = permR n (absM env).
Proof.
  intros Hn. destruct n as [|[|[|[|[|n]]]]]; try lia;
    match goal with |- evalA _ ?e = _ => let e' := eval vm_compute in e in change e with e' end;
    unfold absM; cbn -[IZR Rplus Rminus Rmult Ropp Rabs]; unfold minor0; cbn -[IZR Rplus Rminus Rmult Ropp Rabs]; ring.
Qed.
Lemma adj_len n : (2 <= n <= 4)%nat -> length (adj_expr n) = (n * n)%nat.
Proof. intros Hn. destruct n as [|[|[|[|[|n]]]]]; try lia; reflexivity. Qed.
Lemma permR_ext n f g : (forall i j, (i < n)%nat -> (j < n)%nat -> f i j = g i j) -> permR n f = permR n g.
Proof.
  revert f g; induction n as [|n IH]; intros f g H; [reflexivity|]. cbn [permR].
  apply rsum_ext. intros j Hj. rewrite (H 0%nat j) by lia. f_equal. apply IH.
  intros r c Hr Hc. unfold minor0. apply H; [lia|]. destruct (Nat.ltb_spec c j); lia.
Qed.
