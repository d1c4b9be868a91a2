(** Property C147: inverse() in float. *)
From Coq Require Import ZArith Reals Lra Psatz.
From Flocq Require Import Core.Core IEEE754.BinarySingleNaN IEEE754.Binary IEEE754.Bits.
From Verif Require Import InstF32 MMatrix LMat6.
From Verif Require PInvF LErr.
From Verif Require Import PF32 LF32 PF32b.
From Verif Require Import LExprF LDet PDetF.
Import PInvF(inv_shape, recip_err, cell_err).
Local Open Scope R_scope.
Local Open Scope list_scope.
Local Notation bp := (bpow radix2).
Local Notation rnd := (round radix2 (FLT_exp (-149) 24) (Znearest (fun x => negb (Z.even x)))).

Lemma Bleb32_fin_false a b : fin a -> fin b -> (Bleb32 a b = false <-> val b < val a).
Proof. intros Fa Fb. pose proof (Bleb32_fin a b Fa Fb) as H. destruct (Bleb32 a b); split; intros; try discriminate; try reflexivity; [exfalso; apply proj1 in H; specialize (H eq_refl); lra|]. destruct (Rle_lt_dec (val a) (val b)) as [L|L]; [apply H in L; discriminate|exact L]. Qed.
Lemma Bltb32_fin_false a b : fin a -> fin b -> (Bltb32 a b = false <-> val b <= val a).
Proof. intros Fa Fb. pose proof (Bltb32_fin a b Fa Fb) as H. destruct (Bltb32 a b); split; intros; try discriminate; try reflexivity; [exfalso; apply proj1 in H; specialize (H eq_refl); lra|]. destruct (Rlt_le_dec (val a) (val b)) as [L|L]; [apply H in L; discriminate|exact L]. Qed.

Section Inv.
Context (cfg : Cfg) (n : nat) (m inv : list f32) (f : nat -> nat -> f32) (tol : f32).
Context (Hn : (2 <= n <= 4)%nat) (Hm : repM n n m f) (Hl : length inv = (n * n)%nat)
  (HC : forall i j, (i < n)%nat -> (j < n)%nat -> fin (f i j) /\ Rabs (val (f i j)) <= 2 ^ 20) (Ht : fin tol).
Let env := inside f32_zero n f.
Let V i j := val (env i j).
Let A i j := val (f i j).
Let d := eval (ST := F32Scalar) env (idet_expr n).
Let P := permR n (absM A).
Let D := detR n A.

Lemma env_ok : forall i j, okf32 20 (env i j).
Proof. exact (inside_ok32 n f 20 HC). Qed.
Lemma V_in i j : (i < n)%nat -> (j < n)%nat -> V i j = A i j.
Proof. intros Hi Hj. unfold V, A, env. rewrite inside_in by assumption. reflexivity. Qed.
Lemma det_near : okf32 86 d /\ Rabs (val d - D) <= 10 * uro * P + bp (-77).
Proof.
  destruct (inv_shape n Hn) as ((S1 & S2 & S3 & S4 & S5) & _).
  destruct (eval32 20 env (idet_expr n) (dep (idet_expr n)) 10 73) as (O & E);
    [lia|exact env_ok|lia|exact S1|lia|unfold bnd; nia|unfold ubd; nia|].
  split; [eapply okf32_le; [exact O|]; unfold bnd; nia|].
  rewrite (idet_evalR n _ Hn), (idet_evalA n _ Hn) in E. fold V in E.
  change (fun i j : nat => val (env i j)) with V in E.
  rewrite (detR_ext n V A) in E by exact V_in.
  rewrite (permR_ext n (absM V) (absM A)) in E by (intros; unfold absM; rewrite V_in by assumption; reflexivity).
  replace (INR 10) with 10 in E by (rewrite INR_IZR_INZ; reflexivity). exact E.
Qed.
Lemma cof_near i j : (i < n)%nat -> (j < n)%nat ->
  let c := eval (ST := F32Scalar) env (nth (j * n + i) (adj_expr n) EZero) in
  let Pc := permR (n - 1) (cutR (absM A) j i) in
  okf32 63 c /\ Rabs (val c - cofR n A j i) <= 6 * uro * Pc + bp (-102) /\ Rabs (cofR n A j i) <= Pc.
Proof.
  intros Hi Hj. destruct (inv_shape n Hn) as (_ & SH). set (e := nth (j * n + i) (adj_expr n) EZero).
  destruct (SH e) as (S1 & S2 & S3 & S4 & S5). { apply nth_In. rewrite (adj_len n Hn). nia. }
  destruct (eval32 20 env e (dep e) 6 48) as (O & E);
    [lia|exact env_ok|lia|exact S1|lia|unfold bnd; nia|unfold ubd; nia|].
  cbv zeta. split; [eapply okf32_le; [exact O|]; unfold bnd; nia|].
  change (fun i j : nat => val (env i j)) with V in E.
  pose proof (evalR_le V e) as BD. unfold e in E, BD. rewrite (adj_evalR n V i j Hn Hi Hj) in E, BD. rewrite (adj_evalA n V i j Hn Hi Hj) in E, BD.
  fold e in E. unfold cofR in *.
  assert (X1 : detR (n - 1) (cutR V j i) = detR (n - 1) (cutR A j i)).
  { apply detR_ext. apply cutR_inside; try assumption. exact V_in. }
  assert (X2 : permR (n - 1) (cutR (absM V) j i) = permR (n - 1) (cutR (absM A) j i)).
  { apply permR_ext. apply cutR_inside; try assumption. intros; unfold absM; rewrite V_in by assumption; reflexivity. }
  rewrite X1, X2 in *. replace (INR 6) with 6 in E by (rewrite INR_IZR_INZ; reflexivity). split; [exact E|exact BD].
Qed.
Lemma D_le_P : Rabs D <= P.
Proof.
  pose proof (evalR_le A (idet_expr n)) as H. rewrite (idet_evalR n _ Hn), (idet_evalA n _ Hn) in H. exact H.
Qed.
Lemma P_pos : 0 <= P.
Proof. eapply Rle_trans; [apply Rabs_pos|exact D_le_P]. Qed.
Lemma unfolded : mat_inverse (ST := F32Scalar) n m inv tol =
  if inv_reject (ST := F32Scalar) n (b32_abs d) tol then Ok (false, if (n =? 2)%nat then inv else map (eval (ST := F32Scalar) env) (adj_expr n))
  else Ok (true, map (fun e => b32_mult mode_NE (eval (ST := F32Scalar) env e) (b32_div mode_NE f32_one d)) (adj_expr n)).
Proof. exact (mat_inverse_eval (ST := F32Scalar) cfg n m inv env tol Hn (inside_rep f32_zero n m f Hm) Hl). Qed.
Lemma bp20 : bp (-20) = 16 * uro.
Proof. rewrite uro_val. cbn. lra. Qed.
Lemma reject_dec : (inv_reject (ST := F32Scalar) n (b32_abs d) tol = true -> Rabs (val d) <= val tol) /\
  (inv_reject (ST := F32Scalar) n (b32_abs d) tol = false -> val tol <= Rabs (val d)).
Proof.
  destruct (okf32_abs _ _ (proj1 det_near)) as ((FA & _) & EA). rewrite <- EA.
  unfold inv_reject. cbn [sltb sleb F32Scalar]. destruct (n =? 2)%nat.
  - split; intros H; [apply Bltb32_fin in H; try assumption; lra|apply Bltb32_fin_false in H; try assumption].
  - split; intros H; [apply Bleb32_fin in H; try assumption|apply Bleb32_fin_false in H; try assumption; lra].
Qed.
Lemma abs_near : Rabs (Rabs (val d) - Rabs D) <= P / 2 ^ 20 + / 2 ^ 70.
Proof.
  eapply Rle_trans; [apply Rabs_triang_inv2|]. eapply Rle_trans; [apply det_near|].
  unfold Rdiv. rewrite !inv_pow_bp. change (- Z.of_nat 20)%Z with (-20)%Z. change (- Z.of_nat 70)%Z with (-70)%Z. rewrite bp20.
  pose proof uro_pos. pose proof P_pos.
  assert (0 <= uro * P) by (apply Rmult_le_pos; lra).
  assert (bp (-77) <= bp (-70)) by (apply bpow_le; lia). lra.
Qed.
End Inv.

(** C147.  inverse() of a matrix of floats.  D is the absolute value of the
    determinant of the given cells, P the sum of the absolute values of its
    terms.  A determinant clearly above the tolerance is accepted and one clearly
    below is rejected; and if the call succeeds on a matrix whose determinant is
    not lost to cancellation, every cell of the result is the cell of the true
    inverse up to 32 units of rounding times the condition of the determinant and
    of the cell. *)
Theorem C147_inverse_float :
  forall (cfg : Cfg) (n : nat) (m inv : list f32) (f : nat -> nat -> f32) (tol : f32),
  (2 <= n <= 4)%nat -> repM n n m f -> length inv = (n * n)%nat ->
  (forall i j, (i < n)%nat -> (j < n)%nat -> fin (f i j) /\ Rabs (val (f i j)) <= 2 ^ 20) -> fin tol ->
  let A i j := val (f i j) in
  let D := Rabs (detR n A) in
  let P := permR n (absM A) in
  (D + P / 2 ^ 20 + / 2 ^ 70 < val tol ->
     exists x, mat_inverse (ST := F32Scalar) n m inv tol = Ok (false, x) /\ length x = (n * n)%nat) /\
  (val tol + P / 2 ^ 20 + / 2 ^ 70 < D ->
     exists x, mat_inverse (ST := F32Scalar) n m inv tol = Ok (true, x) /\ length x = (n * n)%nat) /\
  (forall x, mat_inverse (ST := F32Scalar) n m inv tol = Ok (true, x) -> P <= 2 ^ 16 * D -> / 2 ^ 30 <= D ->
     exists h B, repM n n x h /\
       (forall i j, (i < n)%nat -> (j < n)%nat -> mmulR n A B i j = idR i j /\ mmulR n B A i j = idR i j) /\
       forall i j, (i < n)%nat -> (j < n)%nat -> fin (h i j) /\
         Rabs (val (h i j) - B i j) <= / 2 ^ 19 * (P / D) * (permR (n - 1) (cutR (absM A) j i) / D) + / 2 ^ 69).
Proof.
  intros cfg n m inv f tol Hn Hm Hl HC Ht A D P.
  pose proof (unfolded cfg n m inv f tol Hn Hm Hl) as U.
  pose proof (reject_dec n inv f tol Hn Hl HC Ht) as (R1 & R2).
  pose proof (abs_near n inv f Hn Hl HC) as NEAR. fold A in NEAR. fold P D in NEAR.
  pose proof (det_near n inv f Hn Hl HC) as (OD & ED). fold A in ED. fold P in ED.
  set (d := eval (ST := F32Scalar) (inside f32_zero n f) (idet_expr n)) in *.
  assert (NB : - (P / 2 ^ 20 + / 2 ^ 70) <= Rabs (val d) - D <= P / 2 ^ 20 + / 2 ^ 70).
  { destruct (LErr.Rabs_fact (Rabs (val d) - D)) as (X1 & X2). lra. }
  split; [|split].
  - intros H. rewrite U. destruct (inv_reject (ST := F32Scalar) n (b32_abs d) tol).
    + eexists; split; [reflexivity|]. destruct (n =? 2)%nat; [exact Hl|]. rewrite map_length. apply adj_len. exact Hn.
    + exfalso. specialize (R2 eq_refl). lra.
  - intros H. rewrite U. destruct (inv_reject (ST := F32Scalar) n (b32_abs d) tol).
    + exfalso. specialize (R1 eq_refl). lra.
    + eexists; split; [reflexivity|]. rewrite map_length. apply adj_len. exact Hn.
  - intros x Ex HP HD. rewrite U in Ex. destruct (inv_reject (ST := F32Scalar) n (b32_abs d) tol); [discriminate|]. injection Ex as <-.
    set (r := b32_div mode_NE f32_one d).
    pose proof uro_pos as UP. pose proof (D_le_P n f Hn) as DP. fold A in DP. fold P D in DP.
    assert (HD' : bp (-30) <= D) by (rewrite inv_pow_bp in HD; exact HD). clear HD.
    assert (D0 : 0 < D) by (eapply Rlt_le_trans; [apply bpow_gt_0|exact HD']).
    assert (DN : detR n A <> 0) by (intros Z; unfold D in D0; rewrite Z, Rabs_R0 in D0; lra).
    set (K := P / D). assert (EK : P = K * D) by (unfold K; field; lra).
    assert (K1 : 1 <= K) by (apply Rmult_le_reg_r with D; [exact D0|]; rewrite <- EK; lra).
    assert (K2 : K <= bp 16).
    { apply Rmult_le_reg_r with D; [exact D0|]. rewrite <- EK. rewrite (pow_bp 16) in HP. exact HP. }
    assert (KU : uro * K <= / 256).
    { replace (/ 256) with (uro * bp 16) by (rewrite uro_val; cbn; lra). apply Rmult_le_compat_l; lra. }
    assert (UK : uro <= uro * K) by (rewrite <- (Rmult_1_r uro) at 1; apply Rmult_le_compat_l; lra).
    assert (SM : bp (-77) <= uro * D).
    { replace uro with (bp (-24)) by (rewrite uro_val; cbn; lra). eapply Rle_trans; [|apply Rmult_le_compat_l; [apply bpow_ge_0|exact HD']].
      rewrite <- bpow_plus. apply bpow_le. lia. }
    assert (Edel : Rabs (val d - detR n A) <= (11 * (uro * K)) * Rabs (detR n A)).
    { eapply Rle_trans; [exact ED|]. fold D. rewrite EK. assert (uro * D <= uro * K * D) by (apply Rmult_le_compat_r; lra). lra. }
    (* size of d *)
    assert (DB : 15 / 16 * D <= Rabs (val d)).
    { assert (Rabs (Rabs (val d) - D) <= 11 * (uro * K) * D).
      { unfold D at 1. eapply Rle_trans; [apply Rabs_triang_inv2|]. exact Edel. }
      destruct (LErr.Rabs_fact (Rabs (val d) - D)) as (X1 & _).
      assert (11 * (uro * K) * D <= / 16 * D) by (apply Rmult_le_compat_r; lra). lra. }
    assert (dN : val d <> 0) by (intros Z; rewrite Z, Rabs_R0 in DB; lra).
    assert (INV1 : Rabs (/ val d) <= bp 31).
    { rewrite Rabs_inv. rewrite <- (Rinv_inv (bp 31)), <- bpow_opp. apply Rinv_le_contravar; [apply bpow_gt_0|].
      change (- (31))%Z with (-30 + -1)%Z. rewrite bpow_plus. change (bp (-1)) with (/ 2). lra. }
    assert (INV2 : bp (-86) <= Rabs (/ val d)).
    { rewrite Rabs_inv. change (-86)%Z with (- (86))%Z. rewrite bpow_opp. apply Rinv_le_contravar; [lra|]. apply OD. }
    assert (RR : okf32 31 r /\ Rabs (val r - / val d) <= uro * Rabs (/ val d)).
    { assert (E1 : val f32_one / val d = / val d) by (rewrite val_one; unfold Rdiv; ring).
      assert (RB : Rabs (rnd (/ val d)) <= bp 31) by (apply rnd_le; [lia|exact INV1]).
      destruct (div_fin f32_one d) as (F & E); [reflexivity|exact dN|rewrite E1; eapply Rle_lt_trans; [exact RB|apply bpow_lt; lia]|].
      rewrite E1 in E. fold r in F, E. split; [split; [exact F|rewrite E; exact RB]|].
      destruct (rnd_rel (/ val d)) as (t & Ht' & Et). { eapply Rle_trans; [|exact INV2]. apply bpow_le. lia. }
      rewrite E, Et. replace (/ val d * (1 + t) - / val d) with (t * / val d) by ring. rewrite Rabs_mult. apply Rmult_le_compat_r; [apply Rabs_pos|exact Ht']. }
    destruct RR as (OR & ER).
    assert (US : 0 <= uro <= / 1000) by (rewrite uro_val; lra).
    pose proof (recip_err (detR n A) (val d) (val r) (11 * (uro * K)) uro DN Edel ltac:(lra) ER US) as RE.
    assert (RE' : Rabs (val r * detR n A - 1) <= 13 * uro * (P / Rabs (detR n A))).
    { eapply Rle_trans; [exact RE|]. fold D. change (P / D) with K. lra. }
    set (h i j := b32_mult mode_NE (eval (ST := F32Scalar) (inside f32_zero n f) (nth (j * n + i) (adj_expr n) EZero)) r).
    exists h, (fun i j => cofR n A j i * (1 / detR n A)). split; [|split].
    + split; [rewrite map_length; apply adj_len; exact Hn|]. intros i j Hi Hj. rewrite nth_error_map.
      rewrite (nth_error_nth' (adj_expr n) EZero) by (rewrite (adj_len n Hn); nia). reflexivity.
    + intros i j Hi Hj. apply scaled_adj; assumption.
    + intros i j Hi Hj. destruct (cof_near n inv f Hn Hl HC i j Hi Hj) as (OC & EC & BC). fold A in EC, BC.
      set (c := eval (ST := F32Scalar) (inside f32_zero n f) (nth (j * n + i) (adj_expr n) EZero)) in *.
      destruct (okf32_mult 63 31 c r OC OR ltac:(lia)) as ((FX & _) & EX). split; [exact FX|].
      set (Pc := permR (n - 1) (cutR (absM A) j i)) in *.
      assert (CE := cell_err (detR n A) (cofR n A j i) (val c) (val r) (val (h i j)) P Pc uro (bp (-102)) eta DN).
      replace (cofR n A j i * (1 / detR n A)) with (cofR n A j i / detR n A) by (unfold Rdiv; ring).
      eapply Rle_trans.
      { apply CE; try assumption.
        - apply bpow_ge_0.
        - apply Rlt_le, eta_pos.
        - fold D. change (P / D) with K. lra. }
      fold D. change (P / D) with K. rewrite Rplus_assoc. apply Rplus_le_compat.
      * apply Req_le. f_equal. f_equal. rewrite uro_val, inv_pow_bp. cbn. lra.
      * assert (bp (-102) / D <= bp (-72)).
        { apply Rmult_le_reg_r with D; [exact D0|]. unfold Rdiv. rewrite Rmult_assoc, Rinv_l, Rmult_1_r by lra.
          eapply Rle_trans; [|apply Rmult_le_compat_l; [apply bpow_ge_0|exact HD']]. rewrite <- bpow_plus. apply bpow_le. lia. }
        assert (E8 : eta <= bp (-72)) by (rewrite <- eta_bpow; change (/ 2) with (bp (-1)); rewrite <- bpow_plus; apply bpow_le; lia).
        assert (E9 : 4 * bp (-72) <= / 2 ^ 69).
        { rewrite inv_pow_bp. change 4 with (bp 2). rewrite <- bpow_plus. apply bpow_le. lia. }
        pose proof (bpow_ge_0 radix2 (-72)). lra.
Qed.
Print Assumptions C147_inverse_float.

