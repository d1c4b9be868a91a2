(** Lemmas about IEEE binary64 operations that do not overflow. *)
From Coq Require Import ZArith Reals Lra Psatz.
From Flocq Require Import Core.Core IEEE754.BinarySingleNaN IEEE754.Binary IEEE754.Bits Relative Plus_error.
From Verif Require Import InstF LF64 LVector LMatrix Spec LSum PFloat.
Local Open Scope R_scope.
Local Instance prec53' : Prec_gt_0 53.
Proof. reflexivity. Qed.
Local Instance vexp : Valid_exp (FLT_exp (-1074) 53).
Proof. apply FLT_exp_valid. reflexivity. Qed.
Local Notation rnd := (round radix2 (FLT_exp (-1074) 53) (Znearest (fun x => negb (Z.even x)))).
Local Notation bp := (bpow radix2).

Lemma format_scaled (n : nat) (e : Z) : (Z.of_nat n < 2 ^ 53)%Z -> (-1074 <= e)%Z ->
  generic_format radix2 (FLT_exp (-1074) 53) (INR n * bp e).
Proof.
  intros Hn He. apply generic_format_FLT. apply (FLT_spec _ _ _ _ (Float radix2 (Z.of_nat n) e)).
  - unfold F2R. cbn. rewrite INR_IZR_INZ. reflexivity.
  - cbn. rewrite Z.abs_eq by lia. exact Hn.
  - exact He.
Qed.
Lemma format_bp (e : Z) : (-1074 <= e)%Z -> generic_format radix2 (FLT_exp (-1074) 53) (bp e).
Proof. intros He. replace (bp e) with (INR 1 * bp e) by (cbn; lra). apply format_scaled; [cbn; lia|exact He]. Qed.
Lemma rnd_le (x : R) (e : Z) : (-1074 <= e)%Z -> Rabs x <= bp e -> Rabs (rnd x) <= bp e.
Proof. intros He H. apply abs_round_le_generic; [typeclasses eauto|apply valid_rnd_N|apply format_bp; exact He|exact H]. Qed.
Lemma rnd_le_scaled (x : R) (n : nat) (e : Z) : (Z.of_nat n < 2 ^ 53)%Z -> (-1074 <= e)%Z -> Rabs x <= INR n * bp e -> Rabs (rnd x) <= INR n * bp e.
Proof. intros Hn He H. apply abs_round_le_generic; [typeclasses eauto|apply valid_rnd_N|apply format_scaled; assumption|exact H]. Qed.
(** Relative error in the normal range. *)
Lemma rnd_rel (x : R) : bp (-1022) <= Rabs x -> exists d, Rabs d <= uro /\ rnd x = x * (1 + d).
Proof.
  intros H. destruct (relative_error_N_FLT_ex radix2 (-1074) 53 ltac:(reflexivity) (fun x => negb (Z.even x)) x) as (d & Hd & E); [exact H|].
  exists d. split; [|exact E]. eapply Rle_trans; [exact Hd|]. rewrite <- uro_ro. unfold u_ro. apply Rle_refl.
Qed.

Lemma mult_fin a b : fin a -> fin b -> Rabs (rnd (val a * val b)) < bp 1024 ->
  fin (b64_mult mode_NE a b) /\ val (b64_mult mode_NE a b) = rnd (val a * val b).
Proof.
  unfold fin, val, b64_mult. intros Fa Fb H.
  match goal with |- context [Bmult _ _ ?p ?q ?n _ _ _] => pose proof (Bmult_correct 53 1024 p q n mode_NE a b) as C end. cbv zeta in C.
  rewrite Rlt_bool_true in C by exact H. destruct C as (C1 & C2 & _). rewrite Fa, Fb in C2. split; [exact C2|exact C1].
Qed.
Lemma plus_fin a b : fin a -> fin b -> Rabs (rnd (val a + val b)) < bp 1024 ->
  fin (b64_plus mode_NE a b) /\ val (b64_plus mode_NE a b) = rnd (val a + val b).
Proof.
  unfold fin, val, b64_plus. intros Fa Fb H.
  match goal with |- context [Bplus _ _ ?p ?q ?n _ _ _] => pose proof (Bplus_correct 53 1024 p q n mode_NE a b Fa Fb) as C end. cbv zeta in C.
  rewrite Rlt_bool_true in C by exact H. destruct C as (C1 & C2 & _). split; [exact C2|exact C1].
Qed.
Lemma div_fin a b : fin a -> val b <> 0 -> Rabs (rnd (val a / val b)) < bp 1024 ->
  fin (b64_div mode_NE a b) /\ val (b64_div mode_NE a b) = rnd (val a / val b).
Proof.
  unfold fin, val, b64_div. intros Fa Hb H.
  match goal with |- context [Bdiv _ _ ?p ?q ?n _ _ _] => pose proof (Bdiv_correct 53 1024 p q n mode_NE a b Hb) as C end. cbv zeta in C.
  rewrite Rlt_bool_true in C by exact H. destruct C as (C1 & C2 & _). rewrite Fa in C2. split; [exact C2|exact C1].
Qed.
Lemma sqrt_fin a : fin a -> 0 < val a -> fin (b64_sqrt mode_NE a) /\ val (b64_sqrt mode_NE a) = rnd (sqrt (val a)).
Proof.
  unfold fin, val, b64_sqrt. intros Fa Ha.
  match goal with |- context [Bsqrt _ _ ?p ?q ?n _ _] => pose proof (Bsqrt_correct 53 1024 p q n mode_NE a) as C end. cbv zeta in C.
  destruct C as (C1 & C2 & _). split; [|exact C1]. rewrite C2.
  destruct a as [s|s|s p0 H0|s m e H0]; try reflexivity; try discriminate Fa.
  destruct s; [|reflexivity]. exfalso. cbn in Ha. apply Rlt_not_le in Ha. apply Ha. apply Rlt_le, F2R_lt_0. reflexivity.
Qed.
Lemma Beqb_pos a : fin a -> 0 < val a -> Beqb a f64_zero = false.
Proof.
  intros Fa Ha. unfold Beqb, b64_compare. rewrite Bcompare_correct; [|exact Fa|reflexivity].
  change (B2R 53 1024 f64_zero) with 0. rewrite Rcompare_Gt by exact Ha. reflexivity.
Qed.

Local Existing Instance F64Scalar.
(** A sum of n squares of numbers of at most 2^500 does not overflow. *)
Lemma sum_squares_fin (a : nat -> f64) (n : nat) : (forall i, (i < n)%nat -> fin (a i) /\ Rabs (val (a i)) <= bp 500) -> (Z.of_nat n <= 2 ^ 20)%Z ->
  fin (ssum n (fun i => smul (a i) (a i))) /\ Rabs (val (ssum n (fun i => smul (a i) (a i)))) <= INR n * bp 1000.
Proof.
  induction n as [|n IH]; intros Ha Hn.
  - cbn. split; [reflexivity|]. unfold val. cbn. rewrite Rabs_R0. lra.
  - destruct IH as (F & B); [intros i Hi; apply Ha; lia|lia|]. cbn [ssum]. set (s := ssum n (fun i => smul (a i) (a i))) in *. cbn [sadd smul F64Scalar].
    destruct (Ha n ltac:(lia)) as (Fa & Ba).
    assert (P1 : Rabs (val (a n) * val (a n)) <= bp 1000).
    { rewrite Rabs_mult. change 1000%Z with (500 + 500)%Z. rewrite bpow_plus. apply Rmult_le_compat; try apply Rabs_pos; exact Ba. }
    pose proof (rnd_le _ 1000 ltac:(lia) P1) as P2.
    assert (L1024 : bp 1000 < bp 1024) by (apply bpow_lt; lia).
    destruct (mult_fin (a n) (a n) Fa Fa ltac:(lra)) as (Fp & Ep).
    assert (S1 : Rabs (val s + val (b64_mult mode_NE (a n) (a n))) <= INR (S n) * bp 1000).
    { eapply Rle_trans; [apply Rabs_triang|]. rewrite Ep, S_INR. lra. }
    pose proof (rnd_le_scaled _ (S n) 1000 ltac:(lia) ltac:(lia) S1) as S2.
    assert (S3 : INR (S n) * bp 1000 < bp 1024).
    { change 1024%Z with (24 + 1000)%Z. rewrite bpow_plus. apply Rmult_lt_compat_r; [apply bpow_gt_0|].
      rewrite INR_IZR_INZ. change (bp 24) with (IZR (2 ^ 24)). apply IZR_lt. lia. }
    destruct (plus_fin s (b64_mult mode_NE (a n) (a n)) F Fp ltac:(lra)) as (Fs & Es).
    split; [exact Fs|]. rewrite Es. exact S2.
Qed.
Lemma pow_bern (u : R) (k : nat) : 0 <= u -> 2 * INR k * u <= 1 -> (1 + u) ^ k <= 1 + 2 * INR k * u.
Proof.
  intros Hu. induction k as [|k IH]; intros H; [cbn; lra|]. rewrite S_INR in *. pose proof (pos_INR k) as Kp. cbn [pow].
  assert (2 * INR k * u <= 1) by nra. specialize (IH H0).
  assert ((1 + u) * (1 + u) ^ k <= (1 + u) * (1 + 2 * INR k * u)) by (apply Rmult_le_compat_l; lra). nra.
Qed.
Lemma sqrt_near (x d : R) : 0 < x -> 0 <= d -> Rabs (x - 1) <= d -> Rabs (sqrt x - 1) <= d.
Proof.
  intros Hx Hd H. pose proof (sqrt_lt_R0 x Hx) as Sp. pose proof (sqrt_sqrt x ltac:(lra)) as SS. set (y := sqrt x) in *.
  replace (x - 1) with ((y - 1) * (y + 1)) in H by (rewrite <- SS; ring). rewrite Rabs_mult, (Rabs_pos_eq (y + 1)) in H by lra.
  pose proof (Rabs_pos (y - 1)). nra.
Qed.

Lemma B2R_one : forall x : f64, B2FF 53 1024 x = F754_finite false 4503599627370496 (-52) -> B2R 53 1024 x = 1.
Proof. intros x H. rewrite <- FF2R_B2FF, H. unfold FF2R, F2R. cbn. lra. Qed.
Lemma val_one : val f64_one = 1.
Proof. apply B2R_one. vm_compute. reflexivity. Qed.
Lemma val_two : val f64_two = 2.
Proof.
  unfold val. rewrite <- FF2R_B2FF. replace (B2FF 53 1024 f64_two) with (F754_finite false 4503599627370496 (-51)) by (vm_compute; reflexivity).
  unfold FF2R, F2R. cbn. lra.
Qed.
(** A finite value with a clear sign bit and a non-zero mantissa is positive. *)
Lemma val_gt0 (x : f64) : match B2FF 53 1024 x with F754_finite false _ _ => true | _ => false end = true -> 0 < val x.
Proof.
  unfold val. rewrite <- FF2R_B2FF. destruct (B2FF 53 1024 x) as [?|?|? ?|[|] m e]; intros H; try discriminate H.
  unfold FF2R. apply F2R_gt_0. reflexivity.
Qed.
