(** Property C122: length() in IEEE binary32. *)
From Coq Require Import ZArith Reals Lra Psatz.
From Flocq Require Import Core.Core IEEE754.BinarySingleNaN IEEE754.Binary IEEE754.Bits.
From Verif Require Import InstF32  LVector LMatrix Spec LSum PF32 LF32.
Local Open Scope R_scope.
Local Existing Instance F32Scalar.
Local Notation rnd := (round radix2 (FLT_exp (-149) 24) (Znearest (fun x => negb (Z.even x)))).
Local Notation bp := (bpow radix2).

Lemma uro_val : uro = / 16777216.
Proof. unfold uro. f_equal. lra. Qed.
Lemma INR_bound n : (Z.of_nat n <= 2 ^ 10)%Z -> 0 <= INR n <= 1024.
Proof. intros H. split; [apply pos_INR|]. rewrite INR_IZR_INZ. apply IZR_le. exact H. Qed.
(** |x| <= d z: x is a number of relative size d. *)
Lemma rel_factor x y d : 0 < y -> Rabs (x - y) <= d * y -> exists t, Rabs t <= d /\ x = y * (1 + t).
Proof.
  intros Hy H. exists ((x - y) / y). split; [|field; lra]. unfold Rdiv. rewrite Rabs_mult, Rabs_inv, (Rabs_pos_eq y) by lra.
  apply (Rmult_le_reg_r y); [exact Hy|]. rewrite Rmult_assoc, Rinv_l by lra. lra.
Qed.

Section Len.
Variables (n : nat) (a : nat -> f32).
Hypothesis Ha : forall i, (i < n)%nat -> fin (a i) /\ Rabs (val (a i)) <= bp 50.
Hypothesis Hn : (Z.of_nat n <= 2 ^ 10)%Z.
Let L := lenR n (fun i => val (a i)).
Hypothesis HL : bp (-50) <= L.
Let s := ssum n (fun i => smul (a i) (a i)).

Lemma L_pos : 0 < L.
Proof. eapply Rlt_le_trans; [apply bpow_gt_0|exact HL]. Qed.
Lemma LL : L * L = rsum n (fun i => val (a i) * val (a i)).
Proof. apply lenR_sq. Qed.
Lemma LL_low : bp (-100) <= L * L.
Proof.
  change (-100)%Z with (-50 + -50)%Z. rewrite bpow_plus. pose proof (bpow_ge_0 radix2 (-50)). apply Rmult_le_compat; assumption.
Qed.
Lemma L_high : L <= bp 55.
Proof.
  pose proof L_pos as LP. apply Rsqr_incr_0_var; [|apply bpow_ge_0]. unfold Rsqr. rewrite LL. rewrite <- bpow_plus.
  eapply Rle_trans; [apply rsum_le with (g := fun _ => bp 100)|].
  - intros i Hi. destruct (Ha i Hi) as (_ & B). change 100%Z with (50 + 50)%Z. rewrite bpow_plus.
    eapply Rle_trans; [apply Rle_abs|]. rewrite Rabs_mult. apply Rmult_le_compat; try apply Rabs_pos; exact B.
  - rewrite rsum_const. change (55 + 55)%Z with (10 + 100)%Z. rewrite bpow_plus. apply Rmult_le_compat_r; [apply bpow_ge_0|].
    pose proof (INR_bound n Hn). change (bp 10) with 1024. lra.
Qed.
Lemma sum_rel : exists x, Rabs x <= 2 * INR n * uro + INR n * bp (-49) /\ val s = L * L * (1 + x) /\ fin s.
Proof.
  destruct (sum_squares_fin a n Ha Hn) as (F & _). fold s in F. pose proof (INR_bound n Hn) as NB.
  pose proof (ssum_error a a n F) as E. fold s in E. unfold dot_bound in E. rewrite <- LL in E.
  rewrite (rsum_ext n (fun i => Rabs (val (a i) * val (a i))) (fun i => val (a i) * val (a i))) in E by (intros i Hi; apply Rabs_pos_eq; nra).
  rewrite <- LL in E. pose proof L_pos as LP. pose proof LL_low as LW.
  destruct (rel_factor (val s) (L * L) (2 * INR n * uro + INR n * bp (-49))) as (x & Hx & Ex); [nra| |exists x; repeat split; assumption].
  eapply Rle_trans; [exact E|]. pose proof uro_pos as UP. pose proof uro_val as UV.
  assert (B : (1 + uro) ^ n <= 1 + 2 * INR n * uro) by (apply pow_bern; [lra|]; rewrite UV; lra).
  assert (B2 : (1 + uro) ^ n <= 2) by (eapply Rle_trans; [exact B|]; rewrite UV; lra).
  set (q := (1 + uro) ^ n) in *. set (S := L * L) in *.
  assert (ET : eta * 2 <= bp (-49) * S).
  { apply Rle_trans with (bp (-49) * bp (-100)); [|apply Rmult_le_compat_l; [apply bpow_ge_0|exact LW]].
    rewrite <- bpow_plus. rewrite <- eta_bpow. replace (/ 2 * bp (-149) * 2) with (bp (-149)) by lra. apply bpow_le. lia. }
  assert (T1 : INR n * eta * q <= INR n * (bp (-49) * S)).
  { rewrite Rmult_assoc. apply Rmult_le_compat_l; [lra|]. pose proof eta_pos. nra. }
  assert (T2 : (q - 1) * S <= 2 * INR n * uro * S) by (apply Rmult_le_compat_r; [unfold S; nra|lra]).
  lra.
Qed.
Lemma bp49 : 0 < bp (-49) <= uro / 1024 / 4.
Proof.
  split; [apply bpow_gt_0|]. rewrite uro_val. apply Rle_trans with (bp (-36)); [apply bpow_le; lia|]. cbn. lra.
Qed.
Lemma len_rel : exists r t, ssqrt s = Ok r /\ fin r /\ Rabs t <= 2 * (INR n + 1) * uro /\ val r = L * (1 + t).
Proof.
  destruct sum_rel as (x & Hx & Ex & F). pose proof (INR_bound n Hn) as NB. pose proof uro_pos as UP. pose proof uro_val as UV.
  pose proof bp49 as B49. pose proof L_pos as LP. pose proof LL_low as LW.
  assert (HX : Rabs x <= 2 * INR n * uro + uro / 4).
  { eapply Rle_trans; [exact Hx|]. assert (INR n * bp (-49) <= 1024 * (uro / 1024 / 4)) by (apply Rmult_le_compat; lra). lra. }
  assert (XS : Rabs x <= / 1000) by (rewrite UV in HX; lra). apply Rabs_le_inv in XS as XS'.
  assert (Sp : 0 < val s) by (rewrite Ex; apply Rmult_lt_0_compat; nra).
  cbn [ssqrt F32Scalar]. exists (b32_sqrt mode_NE s). destruct (sqrt_fin s F Sp) as (Fr & Er).
  assert (SQ : sqrt (val s) = L * sqrt (1 + x)).
  { rewrite Ex, sqrt_mult by nra. rewrite sqrt_square by lra. reflexivity. }
  pose proof (sqrt_near (1 + x) (Rabs x) ltac:(lra) (Rabs_pos x)) as SN. replace (1 + x - 1) with x in SN by ring. specialize (SN (Rle_refl _)).
  set (y := sqrt (1 + x)) in *. apply Rabs_le_inv in SN as SN'.
  assert (Low : bp (-126) <= Rabs (sqrt (val s))).
  { rewrite SQ. rewrite Rabs_pos_eq by (apply Rmult_le_pos; lra). apply Rle_trans with (bp (-50) * / 2).
    - change (/ 2) with (bp (-1)). rewrite <- bpow_plus. apply bpow_le. lia.
    - apply Rmult_le_compat; [apply bpow_ge_0|lra|exact HL|lra]. }
  destruct (rnd_rel _ Low) as (d & Hd & Ed). rewrite <- Er, SQ in Ed.
  exists (y * (1 + d) - 1). split; [reflexivity|]. split; [exact Fr|]. split; [|rewrite Ed; ring].
  replace (y * (1 + d) - 1) with ((y - 1) + (d + (y - 1) * d)) by ring. eapply Rle_trans; [apply Rabs_triang|].
  assert (Rabs (d + (y - 1) * d) <= uro + / 1000 * uro).
  { eapply Rle_trans; [apply Rabs_triang|]. rewrite Rabs_mult. apply Rplus_le_compat; [exact Hd|].
    apply Rmult_le_compat; try apply Rabs_pos; [lra|exact Hd]. }
  lra.
Qed.
End Len.

Lemma E50 : 2 ^ 50 = bp 50.
Proof. exact (eq_sym (bpow_pow 50)). Qed.
Lemma Em50 : / 2 ^ 50 = bp (-50).
Proof. change (-50)%Z with (Z.opp 50). rewrite bpow_opp, (bpow_pow 50). reflexivity. Qed.

(** C122, as C116 for double: length().  Components of at most 2^50 and a length of at least
    2^-50: the relative error is at most (n+1) 2^-23. *)
Theorem C122_float_length_error :
  forall (cfg : Cfg) (n : nat) (v : list f32) (a : nat -> f32),
  repV n v a -> (Z.of_nat n <= 2 ^ 10)%Z ->
  (forall i, (i < n)%nat -> fin (a i) /\ Rabs (val (a i)) <= 2 ^ 50) ->
  / 2 ^ 50 <= lenR n (fun i => val (a i)) ->
  exists r, vec_length n v = Ok r /\ fin r /\
    Rabs (val r - lenR n (fun i => val (a i))) <= (INR n + 1) / 2 ^ 23 * lenR n (fun i => val (a i)).
Proof.
  intros cfg n v a Hv Hn Ha HL. unfold vec_length. rewrite (vec_squared_length_spec n v a Hv). cbn [bind].
  rewrite Em50 in HL. assert (Ha' : forall i, (i < n)%nat -> fin (a i) /\ Rabs (val (a i)) <= bp 50) by (intros i Hi; rewrite <- E50; apply Ha; exact Hi).
  destruct (len_rel n a Ha' Hn HL) as (r & t & E & F & Ht & Et). pose proof (L_pos n a HL) as LP. exists r. split; [exact E|]. split; [exact F|]. rewrite Et.
  set (L := lenR n (fun i => val (a i))) in *. replace (L * (1 + t) - L) with (t * L) by ring. rewrite Rabs_mult, (Rabs_pos_eq L) by lra.
  apply Rmult_le_compat_r; [lra|]. eapply Rle_trans; [exact Ht|]. rewrite uro_val. lra.
Qed.

Lemma lenR_le n u w : (forall i, (i < n)%nat -> Rabs (u i) <= w i) -> lenR n u <= lenR n w.
Proof.
  intros H. unfold lenR, dotR. apply sqrt_le_1_alt, rsum_le. intros i Hi. specialize (H i Hi). pose proof (Rabs_pos (u i)).
  replace (u i * u i) with (Rabs (u i) * Rabs (u i)) by (rewrite <- Rabs_mult; apply Rabs_pos_eq; nra). apply Rmult_le_compat; lra.
Qed.

(** normalize() with the division done in float returns (nearly) the length, every component is the exact
    one up to a relative error of (n+3) 2^-23 (and 2^-150), and the result has
    length 1 up to (n+4) 2^-23. *)
Lemma normalize_error :
  forall (cfg : Cfg) (n : nat) (v : list f32) (a : nat -> f32),
  repV n v a -> (Z.of_nat n <= 2 ^ 10)%Z ->
  (forall i, (i < n)%nat -> fin (a i) /\ Rabs (val (a i)) <= 2 ^ 50) ->
  / 2 ^ 50 <= lenR n (fun i => val (a i)) ->
  exists r v' c, vec_normalize n v = Ok (r, v') /\ vec_length n v = Ok r /\ repV n v' c /\
    (forall i, (i < n)%nat -> fin (c i) /\
       Rabs (val (c i) - val (a i) / lenR n (fun i => val (a i))) <=
         (INR n + 3) / 2 ^ 23 * Rabs (val (a i) / lenR n (fun i => val (a i))) + / 2 ^ 150) /\
    Rabs (lenR n (fun i => val (c i)) - 1) <= (INR n + 4) / 2 ^ 23.
Proof.
  intros cfg n v a Hv Hn Ha HL. unfold vec_normalize.
  assert (EL : forall r, ssqrt (ssum n (fun i => smul (a i) (a i))) = Ok r -> vec_length n v = Ok r).
  { intros r E. unfold vec_length. rewrite (vec_squared_length_spec n v a Hv). exact E. }
  rewrite Em50 in HL. assert (Ha' : forall i, (i < n)%nat -> fin (a i) /\ Rabs (val (a i)) <= bp 50) by (intros i Hi; rewrite <- E50; apply Ha; exact Hi).
  destruct (len_rel n a Ha' Hn HL) as (r & t & E & F & Ht & Et). apply EL in E. rewrite E. cbn [bind].
  pose proof (L_pos n a HL) as LP. pose proof (L_high n a Ha' Hn HL) as LH. pose proof (INR_bound n Hn) as NB. pose proof uro_pos as UP. pose proof uro_val as UV.
  set (L := lenR n (fun i => val (a i))) in *.
  assert (TS : Rabs t <= / 1000) by (rewrite UV in Ht; lra). apply Rabs_le_inv in TS.
  assert (RP : 0 < val r) by (rewrite Et; apply Rmult_lt_0_compat; lra).
  cbn [seqb szero sone F32Scalar]. rewrite (Beqb_pos r F RP). cbn [sdiv F32Scalar bind].
  pose proof val_one as V1.
  assert (RL : bp (-51) <= val r).
  { rewrite Et. apply Rle_trans with (bp (-50) * / 2); [change (/ 2) with (bp (-1)); rewrite <- bpow_plus; apply bpow_le; lia|].
    apply Rmult_le_compat; [apply bpow_ge_0|lra|exact HL|lra]. }
  assert (RH : val r <= bp 56).
  { rewrite Et. change 56%Z with (55 + 1)%Z. rewrite bpow_plus. apply Rmult_le_compat; [lra|lra|exact LH|cbn; lra]. }
  assert (I1 : Rabs (val f32_one / val r) <= bp 51).
  { rewrite V1. unfold Rdiv. rewrite Rmult_1_l, Rabs_pos_eq by (apply Rlt_le, Rinv_0_lt_compat; exact RP).
    change 51%Z with (Z.opp (-51)). rewrite bpow_opp. apply Rinv_le; [apply bpow_gt_0|exact RL]. }
  assert (I2 : bp (-56) <= Rabs (val f32_one / val r)).
  { rewrite V1. unfold Rdiv. rewrite Rmult_1_l, Rabs_pos_eq by (apply Rlt_le, Rinv_0_lt_compat; exact RP).
    change (-56)%Z with (Z.opp 56). rewrite bpow_opp. apply Rinv_le; [exact RP|exact RH]. }
  pose proof (rnd_le _ 51 ltac:(lia) I1) as I3.
  destruct (div_fin f32_one r ltac:(reflexivity) ltac:(lra)) as (Ft & Eti). { eapply Rle_lt_trans; [exact I3|]. apply bpow_lt. lia. }
  destruct (rnd_rel (val f32_one / val r)) as (d1 & Hd1 & Ed1). { eapply Rle_trans; [|exact I2]. apply bpow_le. lia. }
  set (tmp := b32_div mode_NE f32_one r) in *. rewrite <- Eti in Ed1, I3.
  unfold vec_mul_assign_s. destruct (vec_map_assign_spec (T := f32) n (fun x : f32 => Ok (smul x tmp)) v a (fun i => b32_mult mode_NE (a i) tmp) Hv) as (v' & E' & H').
  { intros i Hi. reflexivity. }
  rewrite E'. cbn [bind]. exists r, v', (fun i => b32_mult mode_NE (a i) tmp). split; [reflexivity|]. split; [reflexivity|]. split; [exact H'|].
  assert (C : forall i, (i < n)%nat -> fin (b32_mult mode_NE (a i) tmp) /\
       Rabs (val (b32_mult mode_NE (a i) tmp) - val (a i) / L) <= (INR n + 3) / 2 ^ 23 * Rabs (val (a i) / L) + / 2 ^ 150).
  { intros i Hi. destruct (Ha' i Hi) as (Fa & Ba).
    assert (P1 : Rabs (val (a i) * val tmp) <= bp 101).
    { change 101%Z with (50 + 51)%Z. rewrite bpow_plus, Rabs_mult. apply Rmult_le_compat; try apply Rabs_pos; assumption. }
    destruct (mult_fin (a i) tmp Fa Ft) as (Fc & Ec). { eapply Rle_lt_trans; [apply (rnd_le _ 101 ltac:(lia) P1)|]. apply bpow_lt. lia. }
    split; [exact Fc|]. destruct (mult_error (val (a i)) (val tmp)) as (d2 & e & Hd2 & He & EM). rewrite Ec, EM.
    rewrite Ed1, Et, V1. set (x := val (a i)) in *.
    replace (x * (1 / (L * (1 + t)) * (1 + d1)) * (1 + d2) + e - x / L) with (x / L * ((1 + d1) * (1 + d2) / (1 + t) - 1) + e) by (field; lra).
    eapply Rle_trans; [apply Rabs_triang|]. rewrite Rabs_mult. apply Rplus_le_compat; [|exact He].
    rewrite Rmult_comm. apply Rmult_le_compat_r; [apply Rabs_pos|].
    replace ((1 + d1) * (1 + d2) / (1 + t) - 1) with ((d1 + d2 + d1 * d2 - t) / (1 + t)) by (field; lra).
    unfold Rdiv at 1. rewrite Rabs_mult, Rabs_inv, (Rabs_pos_eq (1 + t)) by lra.
    assert (N1 : Rabs (d1 + d2 + d1 * d2 - t) <= 2 * uro + uro * uro + Rabs t).
    { unfold Rminus. eapply Rle_trans; [apply Rabs_triang|]. rewrite Rabs_Ropp. apply Rplus_le_compat_r.
      eapply Rle_trans; [apply Rabs3|]. rewrite Rabs_mult. assert (Rabs d1 * Rabs d2 <= uro * uro) by (apply Rmult_le_compat; try apply Rabs_pos; assumption). lra. }
    apply (Rmult_le_reg_r (1 + t)); [lra|]. rewrite Rmult_assoc, Rinv_l, Rmult_1_r by lra. eapply Rle_trans; [exact N1|].
    assert (T1 : - Rabs t <= t) by (pose proof (Rle_abs (- t)) as X; rewrite Rabs_Ropp in X; lra).
    apply Rle_trans with ((INR n + 3) / 2 ^ 23 * (1 - Rabs t)).
    - assert (UU : uro * uro <= uro / 1000) by (rewrite UV; lra).
      replace ((INR n + 3) / 2 ^ 23) with (2 * (INR n + 3) * uro) by (rewrite UV; lra).
      set (N := INR n) in *. set (at_ := Rabs t) in *.
      assert (A1 : at_ <= / 1000) by (rewrite UV in Ht; lra). pose proof (Rabs_pos t) as A0. fold at_ in A0.
      assert (A2 : 2 * (N + 3) * uro * at_ <= uro).
      { apply Rle_trans with (2 * (N + 3) * uro * (2 * (N + 1) * uro)).
        - apply Rmult_le_compat_l; [|exact Ht]. apply Rmult_le_pos; lra.
        - replace (2 * (N + 3) * uro * (2 * (N + 1) * uro)) with ((2 * (N + 3) * (2 * (N + 1)) * uro) * uro) by ring.
          rewrite <- (Rmult_1_l uro) at 3. apply Rmult_le_compat_r; [lra|].
          apply Rle_trans with (2100 * 2100 * uro); [|rewrite UV; lra]. apply Rmult_le_compat_r; [lra|]. apply Rmult_le_compat; lra. }
      lra.
    - apply Rmult_le_compat_l; [|lra]. apply Rmult_le_pos; [lra|]. lra. }
  split; [exact C|].
  set (b := fun i => val (a i) / L). set (c := fun i => val (b32_mult mode_NE (a i) tmp)) in *. set (eps := (INR n + 3) / 2 ^ 23) in *.
  assert (EP : 0 <= eps) by (unfold eps; apply Rmult_le_pos; lra).
  assert (LB : lenR n b = 1).
  { unfold b. rewrite (lenR_ext n _ (fun i => / L * val (a i))) by (intros; field; lra). rewrite lenR_scal, Rabs_pos_eq by (apply Rlt_le, Rinv_0_lt_compat; lra).
    fold L. field. lra. }
  assert (D : lenR n (fun i => c i - b i) <= eps + INR n * / 2 ^ 150).
  { eapply Rle_trans; [apply (lenR_le n _ (fun i => eps * Rabs (b i) + / 2 ^ 150)); intros i Hi; apply (C i Hi)|].
    eapply Rle_trans; [apply lenR_triangle|]. apply Rplus_le_compat.
    - rewrite lenR_scal, Rabs_pos_eq by exact EP. rewrite <- (Rmult_1_r eps) at 2. apply Rmult_le_compat_l; [exact EP|]. rewrite <- LB. apply Req_le.
      unfold lenR, dotR. f_equal. apply rsum_ext. intros i Hi. rewrite <- Rabs_mult. apply Rabs_pos_eq. nra.
    - set (h := / 2 ^ 150). assert (H0 : 0 < h) by (apply Rinv_0_lt_compat, pow_lt; lra). unfold lenR, dotR. rewrite rsum_const. rewrite <- Rmult_assoc. rewrite (Rmult_assoc (INR n)).
      rewrite sqrt_mult by nra. rewrite sqrt_square by lra. apply Rmult_le_compat_r; [lra|].
      destruct (Nat.eq_dec n 0) as [->|NZ]; [cbn; rewrite sqrt_0; lra|].
      assert (1 <= INR n) by (change 1 with (INR 1); apply le_INR; lia).
      apply Rsqr_incr_0_var; [|lra]. rewrite Rsqr_sqrt by lra. unfold Rsqr. nra. }
  assert (SM : INR n * / 2 ^ 150 <= / 2 ^ 23).
  { change (/ 2 ^ 150) with eta. rewrite <- eta_bpow. change (/ 2) with (bp (-1)). rewrite <- bpow_plus.
    apply Rle_trans with (bp 10 * bp (-1 + -149)); [apply Rmult_le_compat_r; [apply bpow_ge_0|]; cbn; lra|]. rewrite <- bpow_plus.
    apply Rle_trans with (bp (-23)); [apply bpow_le; lia|]. cbn. lra. }
  assert (T1 : lenR n c <= lenR n b + lenR n (fun i => c i - b i)).
  { eapply Rle_trans; [|apply lenR_triangle]. apply Req_le, lenR_ext. intros i Hi. ring. }
  assert (T2 : lenR n b <= lenR n c + lenR n (fun i => c i - b i)).
  { apply Rle_trans with (lenR n c + lenR n (fun i => - (1) * (c i - b i))).
    - eapply Rle_trans; [|apply lenR_triangle]. apply Req_le, lenR_ext. intros i Hi. ring.
    - rewrite lenR_scal, Rabs_Ropp, Rabs_R1. lra. }
  fold c. apply Rabs_le. replace ((INR n + 4) / 2 ^ 23) with (eps + / 2 ^ 23) by (unfold eps; lra). rewrite LB in *. lra.
Qed.

(** A concrete vector the theorem applies to: (1, 2). *)
Example C122_hypotheses_met_116 :
  let a := fun i => match i with O => f32_one | _ => f32_two end in
  repV 2 [f32_one; f32_two] a /\ (Z.of_nat 2 <= 2 ^ 10)%Z /\
  (forall i, (i < 2)%nat -> fin (a i) /\ Rabs (val (a i)) <= 2 ^ 50) /\ / 2 ^ 50 <= lenR 2 (fun i => val (a i)).
Proof.
  cbv zeta. split; [split; [reflexivity|]; intros [|[|i]] Hi; [reflexivity|reflexivity|lia]|]. split; [lia|].
  pose proof val_one as V1. pose proof val_two as V2.
  assert (P : 2 ^ 2 <= 2 ^ 50) by (apply Rle_pow; [lra|lia]).
  split.
  - intros [|[|i]] Hi; [| |lia]; (split; [reflexivity|]); rewrite ?V1, ?V2, Rabs_pos_eq; lra.
  - unfold lenR, dotR. cbn [rsum]. rewrite V1, V2. apply Rle_trans with 1.
    + rewrite <- Rinv_1. apply Rinv_le; [lra|]. apply pow_R1_Rle. lra.
    + rewrite <- sqrt_1 at 1. apply sqrt_le_1_alt. lra.
Qed.

Print Assumptions C122_float_length_error.
