(** Property C147: inverse() in double. *)
From Coq Require Import ZArith Reals Lra Psatz.
From Flocq Require Import Core.Core IEEE754.BinarySingleNaN IEEE754.Binary IEEE754.Bits.
From Verif Require Import InstF MMatrix LMat6.
From Verif Require Import PFloat LFloat LErr PFloat2.
From Verif Require Import LExprF LDet PDetF.
Local Open Scope R_scope.
Local Open Scope list_scope.
Local Notation bp := (bpow radix2).
Local Notation rnd := (round radix2 (FLT_exp (-1074) 53) (Znearest (fun x => negb (Z.even x)))).

(** Real-number facts. *)
Lemma recip_err (D d r del u : R) : D <> 0 -> Rabs (d - D) <= del * Rabs D -> 0 <= del <= / 16 ->
  Rabs (r - / d) <= u * Rabs (/ d) -> 0 <= u <= / 1000 ->
  Rabs (r * D - 1) <= 16 / 15 * (del + u).
Proof.
  intros HD Hd Hdel Hr Hu.
  assert (PD : 0 < Rabs D) by (apply Rabs_pos_lt; exact HD).
  set (t := d / D - 1).
  assert (Ed : d = D * (1 + t)) by (unfold t; field; exact HD).
  assert (Ht : Rabs t <= del).
  { apply Rmult_le_reg_r with (Rabs D); [exact PD|]. rewrite <- Rabs_mult. replace (t * D) with (d - D) by (rewrite Ed; ring). exact Hd. }
  assert (T : - del <= t <= del) by (split; [apply Ropp_le_cancel; rewrite Ropp_involutive; pose proof (Rle_abs (- t)) as G; rewrite Rabs_Ropp in G; lra|pose proof (Rle_abs t); lra]).
  assert (P : 15 / 16 <= 1 + t) by lra. assert (P0 : 1 + t <> 0) by lra.
  set (s := r * d - 1).
  assert (Hs : Rabs s <= u).
  { assert (d <> 0) by (rewrite Ed; apply Rmult_integral_contrapositive; split; assumption).
    replace s with ((r - / d) * d) by (unfold s; field; assumption). rewrite Rabs_mult.
    eapply Rle_trans; [apply Rmult_le_compat_r; [apply Rabs_pos|exact Hr]|]. rewrite Rmult_assoc, <- Rabs_mult, Rinv_l, Rabs_R1 by assumption. lra. }
  replace (r * D - 1) with ((s - t) * / (1 + t)) by (unfold s; rewrite Ed; field; exact P0).
  rewrite Rabs_mult, Rmult_comm. apply Rmult_le_compat; try apply Rabs_pos.
  - rewrite Rabs_pos_eq by (apply Rlt_le, Rinv_0_lt_compat; lra). replace (16 / 15) with (/ (15 / 16)) by lra. apply Rinv_le_contravar; lra.
  - unfold Rminus. eapply Rle_trans; [apply Rabs_triang|]. rewrite Rabs_Ropp. lra.
Qed.
Lemma cell_err (D C c r x P Pc u e1 e2 : R) : D <> 0 -> 0 <= u <= / 1000 -> 0 <= e1 -> 0 <= e2 ->
  Rabs C <= Pc -> Rabs D <= P -> Rabs (c - C) <= 6 * u * Pc + e1 ->
  Rabs (r * D - 1) <= 13 * u * (P / Rabs D) -> 13 * u * (P / Rabs D) <= / 16 ->
  Rabs (x - c * r) <= u * Rabs (c * r) + e2 ->
  Rabs (x - C / D) <= 32 * u * (P / Rabs D) * (Pc / Rabs D) + 2 * (e1 / Rabs D) + e2.
Proof.
  intros HD Hu He1 He2 HC HP Hc Hr Hsm Hx.
  assert (PD : 0 < Rabs D) by (apply Rabs_pos_lt; exact HD).
  set (K := P / Rabs D) in *. set (L := Pc / Rabs D).
  assert (K1 : 1 <= K) by (unfold K; apply Rmult_le_reg_r with (Rabs D); [exact PD|]; unfold Rdiv; rewrite Rmult_assoc, Rinv_l by lra; lra).
  assert (PC : 0 <= Pc) by (eapply Rle_trans; [apply Rabs_pos|exact HC]).
  assert (L0 : 0 <= L) by (apply Rmult_le_pos; [exact PC|apply Rlt_le, Rinv_0_lt_compat, PD]).
  set (s := r * D - 1) in *. assert (Er : r = (1 + s) * / D) by (unfold s; field; exact HD).
  set (q := (c - C) * / D).
  assert (Hq : Rabs q <= 6 * u * L + e1 / Rabs D).
  { unfold q. rewrite Rabs_mult, Rabs_inv. unfold L, Rdiv. replace (6 * u * (Pc * / Rabs D) + e1 * / Rabs D) with ((6 * u * Pc + e1) * / Rabs D) by ring.
    apply Rmult_le_compat_r; [apply Rlt_le, Rinv_0_lt_compat, PD|exact Hc]. }
  set (b := C / D).
  assert (Hb : Rabs b <= L).
  { unfold b, L, Rdiv. rewrite Rabs_mult, Rabs_inv. apply Rmult_le_compat_r; [apply Rlt_le, Rinv_0_lt_compat, PD|exact HC]. }
  assert (Ecr : c * r = (b + q) * (1 + s)) by (rewrite Er; unfold b, q; field; exact HD).
  assert (S16 : Rabs s <= / 16) by lra.
  assert (Pq := Rabs_pos q). assert (Pb := Rabs_pos b). assert (Ps := Rabs_pos s).
  set (e := e1 / Rabs D) in *.
  assert (E0 : 0 <= e) by (apply Rmult_le_pos; [exact He1|apply Rlt_le, Rinv_0_lt_compat, PD]).
  assert (M1 : Rabs (c * r) <= (L + (6 * u * L + e)) * (17 / 16)).
  { rewrite Ecr, Rabs_mult. apply Rmult_le_compat; try apply Rabs_pos.
    - eapply Rle_trans; [apply Rabs_triang|]. lra.
    - eapply Rle_trans; [apply Rabs_triang|]. rewrite Rabs_R1. lra. }
  assert (M2 : Rabs (c * r - b) <= L * (13 * u * K) + (6 * u * L + e) * (17 / 16)).
  { replace (c * r - b) with (b * s + q * (1 + s)) by (rewrite Ecr; ring). eapply Rle_trans; [apply Rabs_triang|]. rewrite !Rabs_mult.
    apply Rplus_le_compat; apply Rmult_le_compat; try apply Rabs_pos; try assumption.
    eapply Rle_trans; [apply Rabs_triang|]. rewrite Rabs_R1. lra. }
  replace (x - b) with ((x - c * r) + (c * r - b)) by ring. eapply Rle_trans; [apply Rabs_triang|].
  set (uL := u * L). assert (UL : 0 <= uL) by (apply Rmult_le_pos; lra).
  assert (ULK : uL <= uL * K) by (rewrite <- (Rmult_1_r uL) at 1; apply Rmult_le_compat_l; lra).
  assert (M3 : u * Rabs (c * r) <= 2 * uL + / 4 * e).
  { eapply Rle_trans; [apply Rmult_le_compat_l; [lra|exact M1]|].
    replace (u * ((L + (6 * u * L + e)) * (17 / 16))) with (17 / 16 * uL + 102 / 16 * (u * uL) + 17 / 16 * (u * e)) by (unfold uL; field).
    assert (u * uL <= / 1000 * uL) by (apply Rmult_le_compat_r; lra).
    assert (u * e <= / 1000 * e) by (apply Rmult_le_compat_r; lra). lra. }
  replace (32 * u * K * L) with (32 * (uL * K)) by (unfold uL; ring).
  replace (L * (13 * u * K) + (6 * u * L + e) * (17 / 16)) with (13 * (uL * K) + 102 / 16 * uL + 17 / 16 * e) in M2 by (unfold uL; field).
  lra.
Qed.
Lemma inv_shape n : (2 <= n <= 4)%nat ->
  ((dep (idet_expr n) < 10)%nat /\ (deg (idet_expr n) <= 4)%nat /\ (off (idet_expr n) <= 6)%nat /\
   (udeg (idet_expr n) <= 3)%nat /\ (uoff (idet_expr n) <= 12)%nat) /\
  forall e, In e (adj_expr n) -> (dep e < 6)%nat /\ (deg e <= 3)%nat /\ (off e <= 3)%nat /\ (udeg e <= 2)%nat /\ (uoff e <= 7)%nat.
Proof.
  intros Hn. split.
  - destruct n as [|[|[|[|[|n]]]]]; try lia; vm_compute; repeat constructor.
  - apply Forall_forall.
    destruct n as [|[|[|[|[|n]]]]]; try lia; vm_compute; repeat (constructor; [repeat constructor|]); constructor.
Qed.
Section Inv.
Context (cfg : Cfg) (n : nat) (m inv : list f64) (f : nat -> nat -> f64) (tol : f64).
Context (Hn : (2 <= n <= 4)%nat) (Hm : repM n n m f) (Hl : length inv = (n * n)%nat)
  (HC : forall i j, (i < n)%nat -> (j < n)%nat -> fin (f i j) /\ Rabs (val (f i j)) <= 2 ^ 100) (Ht : fin tol).
Let env := inside f64_zero n f.
Let V i j := val (env i j).
Let A i j := val (f i j).
Let d := eval (ST := F64Scalar) env (idet_expr n).
Let P := permR n (absM A).
Let D := detR n A.

Lemma env_ok : forall i j, okf 100 (env i j).
Proof. exact (inside_ok n f 100 HC). Qed.
Lemma V_in i j : (i < n)%nat -> (j < n)%nat -> V i j = A i j.
Proof. intros Hi Hj. unfold V, A, env. rewrite inside_in by assumption. reflexivity. Qed.
Lemma det_near : okf 406 d /\ Rabs (val d - D) <= 10 * uro * P + bp (-762).
Proof.
  destruct (inv_shape n Hn) as ((S1 & S2 & S3 & S4 & S5) & _).
  destruct (eval64 100 env (idet_expr n) (dep (idet_expr n)) 10 313) as (O & E);
    [lia|exact env_ok|lia|exact S1|lia|unfold bnd; nia|unfold ubd; nia|].
  split; [eapply okf_le; [exact O|]; unfold bnd; nia|].
  rewrite (idet_evalR n _ Hn), (idet_evalA n _ Hn) in E. fold V in E.
  change (fun i j : nat => val (env i j)) with V in E.
  rewrite (detR_ext n V A) in E by exact V_in.
  rewrite (permR_ext n (absM V) (absM A)) in E by (intros; unfold absM; rewrite V_in by assumption; reflexivity).
  replace (INR 10) with 10 in E by (rewrite INR_IZR_INZ; reflexivity). exact E.
Qed.
Lemma cof_near i j : (i < n)%nat -> (j < n)%nat ->
  let c := eval (ST := F64Scalar) env (nth (j * n + i) (adj_expr n) EZero) in
  let Pc := permR (n - 1) (cutR (absM A) j i) in
  okf 303 c /\ Rabs (val c - cofR n A j i) <= 6 * uro * Pc + bp (-867) /\ Rabs (cofR n A j i) <= Pc.
Proof.
  intros Hi Hj. destruct (inv_shape n Hn) as (_ & SH). set (e := nth (j * n + i) (adj_expr n) EZero).
  destruct (SH e) as (S1 & S2 & S3 & S4 & S5). { apply nth_In. rewrite (adj_len n Hn). nia. }
  destruct (eval64 100 env e (dep e) 6 208) as (O & E);
    [lia|exact env_ok|lia|exact S1|lia|unfold bnd; nia|unfold ubd; nia|].
  cbv zeta. split; [eapply okf_le; [exact O|]; unfold bnd; nia|].
  change (fun i j : nat => val (env i j)) with V in E.
  pose proof (evalR_le V e) as BD. unfold e in E, BD. rewrite (adj_evalR n V i j Hn Hi Hj) in E, BD. rewrite (adj_evalA n V i j Hn Hi Hj) in E, BD.
  fold e in E. unfold cofR in *.
  assert (X1 : detR (n - 1) (cutR V j i) = detR (n - 1) (cutR A j i)).
  { apply detR_ext. apply cutR_inside; try assumption. exact V_in. }
  assert (X2 : permR (n - 1) (cutR (absM V) j i) = permR (n - 1) (cutR (absM A) j i)).
  { apply permR_ext. apply cutR_inside; try assumption. intros; unfold absM; rewrite V_in by assumption; reflexivity. }
  rewrite X1, X2 in *. replace (INR 6) with 6 in E by (rewrite INR_IZR_INZ; reflexivity). split; [exact E|exact BD].
Qed.
Lemma D_le_P : Rabs D <= P.
Proof.
  pose proof (evalR_le A (idet_expr n)) as H. rewrite (idet_evalR n _ Hn), (idet_evalA n _ Hn) in H. exact H.
Qed.
Lemma P_pos : 0 <= P.
Proof. eapply Rle_trans; [apply Rabs_pos|exact D_le_P]. Qed.
Lemma unfolded : mat_inverse (ST := F64Scalar) n m inv tol =
  if inv_reject (ST := F64Scalar) n (b64_abs d) tol then Ok (false, if (n =? 2)%nat then inv else map (eval (ST := F64Scalar) env) (adj_expr n))
  else Ok (true, map (fun e => b64_mult mode_NE (eval (ST := F64Scalar) env e) (b64_div mode_NE f64_one d)) (adj_expr n)).
Proof. exact (mat_inverse_eval (ST := F64Scalar) cfg n m inv env tol Hn (inside_rep f64_zero n m f Hm) Hl). Qed.
Lemma bp49 : bp (-49) = 16 * uro.
Proof. rewrite uro_val. cbn. lra. Qed.
Lemma reject_dec : (inv_reject (ST := F64Scalar) n (b64_abs d) tol = true -> Rabs (val d) <= val tol) /\
  (inv_reject (ST := F64Scalar) n (b64_abs d) tol = false -> val tol <= Rabs (val d)).
Proof.
  destruct (okf_abs _ _ (proj1 det_near)) as ((FA & _) & EA). rewrite <- EA.
  unfold inv_reject. cbn [sltb sleb F64Scalar]. destruct (n =? 2)%nat.
  - split; intros H; [apply Bltb_fin in H; try assumption; lra|apply Bltb_fin_false in H; try assumption].
  - split; intros H; [apply Bleb_fin in H; try assumption|apply Bleb_fin_false in H; try assumption; lra].
Qed.
Lemma abs_near : Rabs (Rabs (val d) - Rabs D) <= P / 2 ^ 49 + / 2 ^ 700.
Proof.
  eapply Rle_trans; [apply Rabs_triang_inv2|]. eapply Rle_trans; [apply det_near|].
  unfold Rdiv. rewrite !inv_pow_bp. change (- Z.of_nat 49)%Z with (-49)%Z. change (- Z.of_nat 700)%Z with (-700)%Z. rewrite bp49.
  pose proof uro_pos. pose proof P_pos.
  assert (0 <= uro * P) by (apply Rmult_le_pos; lra).
  assert (bp (-762) <= bp (-700)) by (apply bpow_le; lia). lra.
Qed.
End Inv.

(** C147.  inverse() of a matrix of doubles.  D is the absolute value of the
    determinant of the given cells, P the sum of the absolute values of its
    terms.  A determinant clearly above the tolerance is accepted and one clearly
    below is rejected; and if the call succeeds on a matrix whose determinant is
    not lost to cancellation, every cell of the result is the cell of the true
    inverse up to 32 units of rounding times the condition of the determinant and
    of the cell. *)
Theorem C147_inverse_double :
  forall (cfg : Cfg) (n : nat) (m inv : list f64) (f : nat -> nat -> f64) (tol : f64),
  (2 <= n <= 4)%nat -> repM n n m f -> length inv = (n * n)%nat ->
  (forall i j, (i < n)%nat -> (j < n)%nat -> fin (f i j) /\ Rabs (val (f i j)) <= 2 ^ 100) -> fin tol ->
  let A i j := val (f i j) in
  let D := Rabs (detR n A) in
  let P := permR n (absM A) in
  (D + P / 2 ^ 49 + / 2 ^ 700 < val tol ->
     exists x, mat_inverse (ST := F64Scalar) n m inv tol = Ok (false, x) /\ length x = (n * n)%nat) /\
  (val tol + P / 2 ^ 49 + / 2 ^ 700 < D ->
     exists x, mat_inverse (ST := F64Scalar) n m inv tol = Ok (true, x) /\ length x = (n * n)%nat) /\
  (forall x, mat_inverse (ST := F64Scalar) n m inv tol = Ok (true, x) -> P <= 2 ^ 45 * D -> / 2 ^ 300 <= D ->
     exists h B, repM n n x h /\
       (forall i j, (i < n)%nat -> (j < n)%nat -> mmulR n A B i j = idR i j /\ mmulR n B A i j = idR i j) /\
       forall i j, (i < n)%nat -> (j < n)%nat -> fin (h i j) /\
         Rabs (val (h i j) - B i j) <= / 2 ^ 48 * (P / D) * (permR (n - 1) (cutR (absM A) j i) / D) + / 2 ^ 500).
Proof.
  intros cfg n m inv f tol Hn Hm Hl HC Ht A D P.
  pose proof (unfolded cfg n m inv f tol Hn Hm Hl) as U.
  pose proof (reject_dec n inv f tol Hn Hl HC Ht) as (R1 & R2).
  pose proof (abs_near n inv f Hn Hl HC) as NEAR. fold A in NEAR. fold P D in NEAR.
  pose proof (det_near n inv f Hn Hl HC) as (OD & ED). fold A in ED. fold P in ED.
  set (d := eval (ST := F64Scalar) (inside f64_zero n f) (idet_expr n)) in *.
  assert (NB : - (P / 2 ^ 49 + / 2 ^ 700) <= Rabs (val d) - D <= P / 2 ^ 49 + / 2 ^ 700).
  { destruct (Rabs_fact (Rabs (val d) - D)) as (X1 & X2). lra. }
  split; [|split].
  - intros H. rewrite U. destruct (inv_reject (ST := F64Scalar) n (b64_abs d) tol).
    + eexists; split; [reflexivity|]. destruct (n =? 2)%nat; [exact Hl|]. rewrite map_length. apply adj_len. exact Hn.
    + exfalso. specialize (R2 eq_refl). lra.
  - intros H. rewrite U. destruct (inv_reject (ST := F64Scalar) n (b64_abs d) tol).
    + exfalso. specialize (R1 eq_refl). lra.
    + eexists; split; [reflexivity|]. rewrite map_length. apply adj_len. exact Hn.
  - intros x Ex HP HD. rewrite U in Ex. destruct (inv_reject (ST := F64Scalar) n (b64_abs d) tol); [discriminate|]. injection Ex as <-.
    set (r := b64_div mode_NE f64_one d).
    pose proof uro_pos as UP. pose proof (D_le_P n f Hn) as DP. fold A in DP. fold P D in DP.
    assert (HD' : bp (-300) <= D) by (rewrite inv_pow_bp in HD; exact HD). clear HD.
    assert (D0 : 0 < D) by (eapply Rlt_le_trans; [apply bpow_gt_0|exact HD']).
    assert (DN : detR n A <> 0) by (intros Z; unfold D in D0; rewrite Z, Rabs_R0 in D0; lra).
    set (K := P / D). assert (EK : P = K * D) by (unfold K; field; lra).
    assert (K1 : 1 <= K) by (apply Rmult_le_reg_r with D; [exact D0|]; rewrite <- EK; lra).
    assert (K2 : K <= bp 45).
    { apply Rmult_le_reg_r with D; [exact D0|]. rewrite <- EK. rewrite (pow_bp 45) in HP. exact HP. }
    assert (KU : uro * K <= / 256).
    { replace (/ 256) with (uro * bp 45) by (rewrite uro_val; cbn; lra). apply Rmult_le_compat_l; lra. }
    assert (UK : uro <= uro * K) by (rewrite <- (Rmult_1_r uro) at 1; apply Rmult_le_compat_l; lra).
    assert (SM : bp (-762) <= uro * D).
    { replace uro with (bp (-53)) by (rewrite uro_val; cbn; lra). eapply Rle_trans; [|apply Rmult_le_compat_l; [apply bpow_ge_0|exact HD']].
      rewrite <- bpow_plus. apply bpow_le. lia. }
    assert (Edel : Rabs (val d - detR n A) <= (11 * (uro * K)) * Rabs (detR n A)).
    { eapply Rle_trans; [exact ED|]. fold D. rewrite EK. assert (uro * D <= uro * K * D) by (apply Rmult_le_compat_r; lra). lra. }
    (* size of d *)
    assert (DB : 15 / 16 * D <= Rabs (val d)).
    { assert (Rabs (Rabs (val d) - D) <= 11 * (uro * K) * D).
      { unfold D at 1. eapply Rle_trans; [apply Rabs_triang_inv2|]. exact Edel. }
      destruct (Rabs_fact (Rabs (val d) - D)) as (X1 & _).
      assert (11 * (uro * K) * D <= / 16 * D) by (apply Rmult_le_compat_r; lra). lra. }
    assert (dN : val d <> 0) by (intros Z; rewrite Z, Rabs_R0 in DB; lra).
    assert (INV1 : Rabs (/ val d) <= bp 301).
    { rewrite Rabs_inv. rewrite <- (Rinv_inv (bp 301)), <- bpow_opp. apply Rinv_le_contravar; [apply bpow_gt_0|].
      change (- (301))%Z with (-300 + -1)%Z. rewrite bpow_plus. change (bp (-1)) with (/ 2). lra. }
    assert (INV2 : bp (-406) <= Rabs (/ val d)).
    { rewrite Rabs_inv. change (-406)%Z with (- (406))%Z. rewrite bpow_opp. apply Rinv_le_contravar; [lra|]. apply OD. }
    assert (RR : okf 301 r /\ Rabs (val r - / val d) <= uro * Rabs (/ val d)).
    { assert (E1 : val f64_one / val d = / val d) by (rewrite val_one; unfold Rdiv; ring).
      assert (RB : Rabs (rnd (/ val d)) <= bp 301) by (apply rnd_le; [lia|exact INV1]).
      destruct (div_fin f64_one d) as (F & E); [reflexivity|exact dN|rewrite E1; eapply Rle_lt_trans; [exact RB|apply bpow_lt; lia]|].
      rewrite E1 in E. fold r in F, E. split; [split; [exact F|rewrite E; exact RB]|].
      destruct (rnd_rel (/ val d)) as (t & Ht' & Et). { eapply Rle_trans; [|exact INV2]. apply bpow_le. lia. }
      rewrite E, Et. replace (/ val d * (1 + t) - / val d) with (t * / val d) by ring. rewrite Rabs_mult. apply Rmult_le_compat_r; [apply Rabs_pos|exact Ht']. }
    destruct RR as (OR & ER).
    assert (US : 0 <= uro <= / 1000) by (rewrite uro_val; lra).
    pose proof (recip_err (detR n A) (val d) (val r) (11 * (uro * K)) uro DN Edel ltac:(lra) ER US) as RE.
    assert (RE' : Rabs (val r * detR n A - 1) <= 13 * uro * (P / Rabs (detR n A))).
    { eapply Rle_trans; [exact RE|]. fold D. change (P / D) with K. lra. }
    set (h i j := b64_mult mode_NE (eval (ST := F64Scalar) (inside f64_zero n f) (nth (j * n + i) (adj_expr n) EZero)) r).
    exists h, (fun i j => cofR n A j i * (1 / detR n A)). split; [|split].
    + split; [rewrite map_length; apply adj_len; exact Hn|]. intros i j Hi Hj. rewrite nth_error_map.
      rewrite (nth_error_nth' (adj_expr n) EZero) by (rewrite (adj_len n Hn); nia). reflexivity.
    + intros i j Hi Hj. apply scaled_adj; assumption.
    + intros i j Hi Hj. destruct (cof_near n inv f Hn Hl HC i j Hi Hj) as (OC & EC & BC). fold A in EC, BC.
      set (c := eval (ST := F64Scalar) (inside f64_zero n f) (nth (j * n + i) (adj_expr n) EZero)) in *.
      destruct (okf_mult 303 301 604 c r OC OR eq_refl ltac:(lia)) as ((FX & _) & EX). split; [exact FX|].
      set (Pc := permR (n - 1) (cutR (absM A) j i)) in *.
      assert (CE := cell_err (detR n A) (cofR n A j i) (val c) (val r) (val (h i j)) P Pc uro (bp (-867)) eta DN).
      replace (cofR n A j i * (1 / detR n A)) with (cofR n A j i / detR n A) by (unfold Rdiv; ring).
      eapply Rle_trans.
      { apply CE; try assumption.
        - apply bpow_ge_0.
        - apply Rlt_le, eta_pos.
        - fold D. change (P / D) with K. lra. }
      fold D. change (P / D) with K. rewrite Rplus_assoc. apply Rplus_le_compat.
      * apply Req_le. f_equal. f_equal. rewrite uro_val, inv_pow_bp. cbn. lra.
      * assert (bp (-867) / D <= bp (-567)).
        { apply Rmult_le_reg_r with D; [exact D0|]. unfold Rdiv. rewrite Rmult_assoc, Rinv_l, Rmult_1_r by lra.
          eapply Rle_trans; [|apply Rmult_le_compat_l; [apply bpow_ge_0|exact HD']]. rewrite <- bpow_plus. apply bpow_le. lia. }
        assert (E8 : eta <= bp (-567)) by (rewrite <- eta_bpow; change (/ 2) with (bp (-1)); rewrite <- bpow_plus; apply bpow_le; lia).
        assert (E9 : 4 * bp (-567) <= / 2 ^ 500).
        { rewrite inv_pow_bp. change 4 with (bp 2). rewrite <- bpow_plus. apply bpow_le. lia. }
        pose proof (bpow_ge_0 radix2 (-567)). lra.
Qed.
Print Assumptions C147_inverse_double.

(** [2 1; 1 2] with the default tolerance is accepted and its inverse computed to
    that accuracy. *)
Example C147_hypotheses_met :
  let m := [f64_two; f64_one; f64_one; f64_two] in
  let f i j := nth (j * 2 + i) m f64_zero in
  let A i j := val (f i j) in
  repM 2 2 m f /\ (forall i j, (i < 2)%nat -> (j < 2)%nat -> fin (f i j) /\ Rabs (val (f i j)) <= 2 ^ 100) /\
  fin f64_eps /\ detR 2 A = 3 /\ permR 2 (absM A) = 5 /\
  val f64_eps + permR 2 (absM A) / 2 ^ 49 + / 2 ^ 700 < Rabs (detR 2 A) /\
  permR 2 (absM A) <= 2 ^ 45 * Rabs (detR 2 A) /\ / 2 ^ 300 <= Rabs (detR 2 A).
Proof.
  intros m f A.
  assert (D3 : detR 2 A = 3) by (rewrite detR_2; unfold A, f; cbn [nth m Nat.mul Nat.add]; rewrite LFloat.val_one, LFloat.val_two; lra).
  assert (P5 : permR 2 (absM A) = 5).
  { cbn -[IZR Rplus Rmult Rabs nth]. unfold minor0, absM, A, f. cbn [Nat.ltb Nat.leb nth m Nat.mul Nat.add]. rewrite LFloat.val_one, LFloat.val_two.
    rewrite !Rabs_pos_eq by lra. lra. }
  assert (EE : val f64_eps <= 1).
  { assert (E : B2FF 53 1024 f64_eps = F754_finite false 4503599627370496 (-104)) by reflexivity.
    unfold val. destruct f64_eps as [s|s|s p0 H0|s mm e H]; try discriminate E. injection E as -> -> ->. cbn. unfold F2R. cbn. lra. }
  assert (X1 : / 2 ^ 300 <= 1) by (rewrite inv_pow_bp; apply (bpow_le radix2 _ 0); lia).
  assert (X2 : / 2 ^ 700 <= / 4) by (rewrite inv_pow_bp; apply (bpow_le radix2 _ (-2)); lia).
  assert (X3 : / 2 ^ 49 <= / 8) by (rewrite inv_pow_bp; apply (bpow_le radix2 _ (-3)); lia).
  assert (X4 : 2 <= 2 ^ 45) by (rewrite pow_bp; apply (bpow_le radix2 1); lia).
  split; [apply repM_nth; reflexivity|]. split.
  { intros i j Hi Hj. destruct i as [|[|i]]; try lia; destruct j as [|[|j]]; try lia; (split; [reflexivity|]); unfold f; cbn [nth m Nat.mul Nat.add];
      rewrite ?LFloat.val_one, ?LFloat.val_two, Rabs_pos_eq by lra; rewrite pow_bp; (eapply Rle_trans; [|apply (bpow_le radix2 1); lia]); cbn; lra. }
  rewrite D3, P5, (Rabs_pos_eq 3) by lra.
  split; [reflexivity|]. repeat split; try reflexivity; lra.
Qed.
