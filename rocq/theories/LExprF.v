(** The error analysis of LExpr.v for double and float. *)
From Coq Require Import ZArith Reals Lra Psatz.
From Flocq Require Import Core.Core IEEE754.BinarySingleNaN IEEE754.Binary IEEE754.Bits.
From Verif Require Import InstF InstF32.
From Verif Require PFloat LFloat PFloat2 LErr PF32 LF32 PF32b.
From Verif Require Export LExpr.
Local Open Scope R_scope.
Local Notation bp := (bpow radix2).

(** Finite floats of at most 2^i. *)
Definition okf32 (i : Z) (x : f32) : Prop := PF32.fin x /\ Rabs (PF32.val x) <= bp i.
Section F32.
Import PF32 LF32.
Local Notation rnd := (round radix2 (FLT_exp (-149) 24) (Znearest (fun x => negb (Z.even x)))).
Lemma okf32_le i j x : okf32 i x -> (i <= j)%Z -> okf32 j x.
Proof. intros (F & B) H. split; [exact F|]. eapply Rle_trans; [exact B|]. apply bpow_le, H. Qed.
Lemma okf32_opp i x : okf32 i x -> okf32 i (b32_opp x) /\ val (b32_opp x) = - val x.
Proof.
  intros (F & B). assert (E : val (b32_opp x) = - val x) by (unfold val, b32_opp; apply B2R_Bopp). split; [|exact E]. split.
  - unfold fin, b32_opp in *. rewrite is_finite_Bopp. exact F.
  - rewrite E, Rabs_Ropp. exact B.
Qed.
Lemma okf32_mult i j a b : okf32 i a -> okf32 j b -> (0 <= i + j < 128)%Z ->
  okf32 (i + j) (b32_mult mode_NE a b) /\ Rabs (val (b32_mult mode_NE a b) - val a * val b) <= uro * Rabs (val a * val b) + eta.
Proof.
  intros (Fa & Ba) (Fb & Bb) Hk.
  assert (P : Rabs (val a * val b) <= bp (i + j)).
  { rewrite bpow_plus, Rabs_mult. apply Rmult_le_compat; try apply Rabs_pos; assumption. }
  pose proof (rnd_le _ (i + j) ltac:(lia) P) as RB.
  destruct (mult_fin a b Fa Fb) as (F & E). { eapply Rle_lt_trans; [exact RB|]. apply bpow_lt. lia. }
  split; [split; [exact F|rewrite E; exact RB]|]. rewrite E.
  destruct (mult_error (val a) (val b)) as (d & e & Hd & He & ->).
  replace (val a * val b * (1 + d) + e - val a * val b) with (d * (val a * val b) + e) by ring.
  eapply Rle_trans; [apply Rabs_triang|]. rewrite (Rabs_mult d). apply Rplus_le_compat; [|exact He].
  apply Rmult_le_compat_r; [apply Rabs_pos|exact Hd].
Qed.
Lemma okf32_plus i a b : okf32 i a -> okf32 i b -> (0 <= i + 1 < 128)%Z ->
  okf32 (i + 1) (b32_plus mode_NE a b) /\ Rabs (val (b32_plus mode_NE a b) - (val a + val b)) <= uro * Rabs (val a + val b).
Proof.
  intros (Fa & Ba) (Fb & Bb) Hk.
  assert (P : Rabs (val a + val b) <= bp (i + 1)).
  { eapply Rle_trans; [apply Rabs_triang|]. rewrite bpow_plus. change (bp 1) with 2. lra. }
  pose proof (rnd_le _ (i + 1) ltac:(lia) P) as RB.
  destruct (plus_fin a b Fa Fb) as (F & E). { eapply Rle_lt_trans; [exact RB|]. apply bpow_lt. lia. }
  split; [split; [exact F|rewrite E; exact RB]|]. rewrite E.
  destruct (plus_error a b) as (d & Hd & ->).
  replace ((val a + val b) * (1 + d) - (val a + val b)) with (d * (val a + val b)) by ring.
  rewrite Rabs_mult. apply Rmult_le_compat_r; [apply Rabs_pos|exact Hd].
Qed.
Lemma minus32_fin a b : fin a -> fin b -> Rabs (rnd (val a - val b)) < bp 128 ->
  fin (b32_minus mode_NE a b) /\ val (b32_minus mode_NE a b) = rnd (val a - val b).
Proof.
  unfold fin, val, b32_minus. intros Fa Fb H.
  match goal with |- context [Bminus _ _ ?p ?q ?n _ _ _] => pose proof (Bminus_correct 24 128 p q n mode_NE a b Fa Fb) as C end. cbv zeta in C.
  rewrite Rlt_bool_true in C by exact H. destruct C as (C1 & C2 & _). split; [exact C2|exact C1].
Qed.
Lemma okf32_minus i a b : okf32 i a -> okf32 i b -> (0 <= i + 1 < 128)%Z ->
  okf32 (i + 1) (b32_minus mode_NE a b) /\ Rabs (val (b32_minus mode_NE a b) - (val a - val b)) <= uro * Rabs (val a - val b).
Proof.
  intros (Fa & Ba) (Fb & Bb) Hk.
  assert (P : Rabs (val a - val b) <= bp (i + 1)).
  { unfold Rminus. eapply Rle_trans; [apply Rabs_triang|]. rewrite Rabs_Ropp, bpow_plus. change (bp 1) with 2. lra. }
  pose proof (rnd_le _ (i + 1) ltac:(lia) P) as RB.
  destruct (minus32_fin a b Fa Fb) as (F & E). { eapply Rle_lt_trans; [exact RB|]. apply bpow_lt. lia. }
  split; [split; [exact F|rewrite E; exact RB]|]. rewrite E.
  destruct (okf32_opp i b (conj Fb Bb)) as (_ & EO).
  destruct (plus_error a (b32_opp b)) as (d & Hd & Ed). rewrite EO in Ed. change (val a + - val b) with (val a - val b) in Ed. rewrite Ed.
  replace ((val a - val b) * (1 + d) - (val a - val b)) with (d * (val a - val b)) by ring.
  rewrite Rabs_mult. apply Rmult_le_compat_r; [apply Rabs_pos|exact Hd].
Qed.
Lemma Bleb32_fin a b : fin a -> fin b -> (Bleb32 a b = true <-> val a <= val b).
Proof.
  unfold fin, val. intros Fa Fb. unfold Bleb32, b32_compare. rewrite (Bcompare_correct 24 128 a b Fa Fb).
  destruct (Rcompare_spec (B2R 24 128 a) (B2R 24 128 b)); split; intros; try discriminate; try reflexivity; lra.
Qed.
Lemma Bltb32_fin a b : fin a -> fin b -> (Bltb32 a b = true <-> val a < val b).
Proof.
  unfold fin, val. intros Fa Fb. unfold Bltb32, b32_compare. rewrite (Bcompare_correct 24 128 a b Fa Fb).
  destruct (Rcompare_spec (B2R 24 128 a) (B2R 24 128 b)); split; intros; try discriminate; try reflexivity; lra.
Qed.
Lemma okf32_abs i x : okf32 i x -> okf32 i (b32_abs x) /\ val (b32_abs x) = Rabs (val x).
Proof.
  intros (F & B). assert (E : val (b32_abs x) = Rabs (val x)) by (unfold val, b32_abs; apply B2R_Babs). split; [|exact E]. split.
  - unfold fin, b32_abs in *. rewrite is_finite_Babs. exact F.
  - rewrite E, Rabs_Rabsolu. exact B.
Qed.
End F32.

Lemma small_eta n : (0 < n)%nat -> 0 <= / 2 ^ n <= 1.
Proof.
  intros H. assert (1 <= 2 ^ n) by (apply pow_R1_Rle; lra). split; [apply Rlt_le, Rinv_0_lt_compat; lra|].
  rewrite <- Rinv_1. apply Rinv_le_contravar; lra.
Qed.

(** All that is needed to apply [eval_bound] to an expression without variables
    other than the cells is a computation. *)
Lemma eval64 (k : Z) (env : nat -> nat -> f64) (e : expr) (d c : nat) (w : Z) :
  (0 <= k)%Z -> (forall i j, LErr.okf k (env i j)) -> (dep e <= d)%nat -> (d < c)%nat -> (c <= 1000)%nat ->
  (bnd k e < 1024)%Z -> (ubd k e + 1 <= w)%Z ->
  LErr.okf (bnd k e) (eval (ST := F64Scalar) env e) /\
  Rabs (PFloat.val (eval (ST := F64Scalar) env e) - evalR (fun i j => PFloat.val (env i j)) e)
    <= INR c * PFloat.uro * evalA (fun i j => PFloat.val (env i j)) e + bp (w - 1075).
Proof.
  intros Hk He Hd Hc Hcc HB Hw.
  assert (LE : INR (dep e) + 1 <= INR c).
  { rewrite <- S_INR. apply le_INR. lia. }
  assert (UP := PFloat.uro_pos). pose proof (pos_INR (dep e)) as DP.
  assert (EW : PFloat.eta * bp w = bp (w - 1075)).
  { rewrite <- PFloat.eta_bpow. change (/ 2) with (bp (-1)). rewrite <- !bpow_plus. f_equal. lia. }
  rewrite <- EW.
  refine (@eval_bound f64 F64Scalar PFloat.val LErr.okf PFloat.uro PFloat.eta 1024 _ _ _ _ _ _ _ _ _ _ k env e _ w Hk He HB _ _ Hw).
  - lra.
  - unfold PFloat.eta. apply small_eta. lia.
  - intros i x H. apply H.
  - exact LErr.okf_le.
  - split; [split; [reflexivity|]|reflexivity]. change (PFloat.val szero) with 0. rewrite Rabs_R0. apply bpow_ge_0.
  - split; [|exact LFloat.val_one]. split; [reflexivity|]. change (@sone f64 F64Scalar) with f64_one. rewrite LFloat.val_one, Rabs_R1. apply Rle_refl.
  - intros i j a b Ha Hb H. apply (LErr.okf_mult i j (i + j) a b Ha Hb eq_refl). lia.
  - intros i a b Ha Hb H. apply (LErr.okf_plus i (i + 1) a b Ha Hb eq_refl). lia.
  - intros i a b Ha Hb H. apply (LErr.okf_minus i (i + 1) a b Ha Hb eq_refl). lia.
  - intros i a Ha. apply LErr.okf_opp. exact Ha.
  - assert (INR c * INR c <= 1048576).
    { assert (INR c <= 1000) by (replace 1000 with (INR 1000) by (rewrite INR_IZR_INZ; reflexivity); apply le_INR; exact Hcc).
      pose proof (pos_INR c). apply Rle_trans with (1000 * 1000); [apply Rmult_le_compat; assumption|lra]. }
    assert (INR (dep e) * INR (dep e) <= INR c * INR c) by (apply Rmult_le_compat; lra).
    rewrite PFloat2.uro_val. lra.
  - apply Rmult_le_compat_r; lra.
Qed.
Lemma eval32 (k : Z) (env : nat -> nat -> f32) (e : expr) (d c : nat) (w : Z) :
  (0 <= k)%Z -> (forall i j, okf32 k (env i j)) -> (dep e <= d)%nat -> (d < c)%nat -> (c <= 1000)%nat ->
  (bnd k e < 128)%Z -> (ubd k e + 1 <= w)%Z ->
  okf32 (bnd k e) (eval (ST := F32Scalar) env e) /\
  Rabs (PF32.val (eval (ST := F32Scalar) env e) - evalR (fun i j => PF32.val (env i j)) e)
    <= INR c * PF32.uro * evalA (fun i j => PF32.val (env i j)) e + bp (w - 150).
Proof.
  intros Hk He Hd Hc Hcc HB Hw.
  assert (LE : INR (dep e) + 1 <= INR c).
  { rewrite <- S_INR. apply le_INR. lia. }
  assert (UP := PF32.uro_pos). pose proof (pos_INR (dep e)) as DP.
  assert (EW : PF32.eta * bp w = bp (w - 150)).
  { rewrite <- PF32.eta_bpow. change (/ 2) with (bp (-1)). rewrite <- !bpow_plus. f_equal. lia. }
  rewrite <- EW.
  refine (@eval_bound f32 F32Scalar PF32.val okf32 PF32.uro PF32.eta 128 _ _ _ _ _ _ _ _ _ _ k env e _ w Hk He HB _ _ Hw).
  - lra.
  - unfold PF32.eta. apply small_eta. lia.
  - intros i x H. apply H.
  - exact okf32_le.
  - split; [split; [reflexivity|]|reflexivity]. change (PF32.val szero) with 0. rewrite Rabs_R0. apply bpow_ge_0.
  - split; [|exact LF32.val_one]. split; [reflexivity|]. change (@sone f32 F32Scalar) with f32_one. rewrite LF32.val_one, Rabs_R1. apply Rle_refl.
  - intros i j a b Ha Hb H. apply (okf32_mult i j a b Ha Hb H).
  - intros i a b Ha Hb H. apply (okf32_plus i a b Ha Hb H).
  - intros i a b Ha Hb H. apply (okf32_minus i a b Ha Hb H).
  - intros i a Ha. apply okf32_opp. exact Ha.
  - assert (INR c * INR c <= 1048576).
    { assert (INR c <= 1000) by (replace 1000 with (INR 1000) by (rewrite INR_IZR_INZ; reflexivity); apply le_INR; exact Hcc).
      pose proof (pos_INR c). apply Rle_trans with (1000 * 1000); [apply Rmult_le_compat; assumption|lra]. }
    assert (INR (dep e) * INR (dep e) <= INR c * INR c) by (apply Rmult_le_compat; lra).
    rewrite PF32b.uro_val. lra.
  - apply Rmult_le_compat_r; lra.
Qed.
