(** Property C171: how far from orthogonal the columns of Q can be in float. *)
From Coq Require Import ZArith Reals Lra Psatz.
From Flocq Require Import Core.Core IEEE754.BinarySingleNaN IEEE754.Binary IEEE754.Bits.
From Verif Require Import InstF InstF32 LVector MMatrix LMatrix MMisc Spec Spec5 LSum PF32 LF32 LErr PF32b Spec11 Spec12 PChainF32 PQrF32.
Local Open Scope R_scope.
Local Open Scope list_scope.
Local Existing Instance F32Scalar.
Local Notation bp := (bpow radix2).

(** ** Lengths and inner products of real vectors *)
Lemma lenR_abs n u : lenR n (fun i => Rabs (u i)) = lenR n u.
Proof. unfold lenR, dotR. f_equal. apply rsum_ext. intros i _. rewrite <- Rabs_mult. apply Rabs_pos_eq. nra. Qed.
Lemma abs_cs n u v : rsum n (fun i => Rabs (u i * v i)) <= lenR n u * lenR n v.
Proof.
  rewrite <- (lenR_abs n u), <- (lenR_abs n v). eapply Rle_trans; [|apply lenR_cs]. eapply Rle_trans; [|apply Rle_abs].
  apply Req_le. unfold dotR. apply rsum_ext. intros i _. apply Rabs_mult.
Qed.
Lemma lenR_rsum n k (F : nat -> nat -> R) : lenR n (fun i => rsum k (fun l => F l i)) <= rsum k (fun l => lenR n (F l)).
Proof.
  induction k as [|k IH]; cbn [rsum].
  - apply Req_le. unfold lenR, dotR. rewrite (rsum_zero' n) by (intros; ring). apply sqrt_0.
  - eapply Rle_trans; [apply lenR_triangle|]. lra.
Qed.
Lemma lenR_const n h : 0 <= h -> lenR n (fun _ => h) <= INR n * h.
Proof.
  intros H. unfold lenR, dotR. rewrite rsum_const, <- Rmult_assoc, (Rmult_assoc (INR n)). pose proof (pos_INR n) as PN.
  rewrite sqrt_mult by nra. rewrite sqrt_square by lra. apply Rmult_le_compat_r; [lra|].
  destruct (Nat.eq_dec n 0) as [->|NZ]; [cbn; rewrite sqrt_0; lra|].
  assert (1 <= INR n) by (change 1 with (INR 1); apply le_INR; lia).
  apply Rsqr_incr_0_var; [|lra]. rewrite Rsqr_sqrt by lra. unfold Rsqr. nra.
Qed.
Lemma dotR_rsum n k u (F : nat -> nat -> R) (c : nat -> R) :
  dotR n u (fun i => rsum k (fun l => F l i * c l)) = rsum k (fun l => dotR n u (F l) * c l).
Proof.
  unfold dotR. rewrite (rsum_ext n _ (fun i => rsum k (fun l => u i * (F l i * c l)))) by (intros; rewrite rsum_scal; reflexivity).
  rewrite rsum_swap. apply rsum_ext. intros l _. rewrite <- rsum_scal_r. apply rsum_ext. intros i _. ring.
Qed.

(** ** One column, over the reals *)
Section Column.
Context (M j k : nat) (q : nat -> nat -> R) (r : nat -> R) (a v p : nat -> R) (w u h N Mr dl : R).
Context (Hk : (k < j)%nat) (UP : 0 < u) (HP : 0 <= h).
Context (MB : 1 <= Mr <= 1024) (EM : INR M <= Mr) (NB : 1 <= N <= 1024) (EN : INR j + 1 <= N).
Context (UV : u = / 16777216) (HV : h <= / 2 ^ 60 * w * u) (HV2 : h <= / 2 ^ 60 * u) (WP : 0 < w).
Context (LQ : forall l, (l < j)%nat -> Rabs (lenR M (q l) - 1) <= 2 * (Mr + 3) * u).
Context (HR : forall l, (l < j)%nat -> Rabs (r l - dotR M (q l) a) <= 2 * Mr * u * rsum M (fun i => Rabs (q l i * a i)) + 2 * Mr * h).
Context (HVv : forall i, (i < M)%nat -> Rabs (v i - (a i - rsum j (fun l => q l i * r l))) <= 2 * N * u * (Rabs (a i) + rsum j (fun l => Rabs (q l i * r l))) + 2 * N * h).
Context (HW : lenR M v <= 2 * w).
Context (HPp : forall i, (i < M)%nat -> Rabs (p i - v i / w) <= u * Rabs (v i / w) + h).
Context (HD : forall l, (l < j)%nat -> l <> k -> Rabs (dotR M (q k) (q l)) <= dl) (DP : 0 <= dl).

Let A := lenR M a.
Lemma A0 : 0 <= A. Proof. apply lenR_nonneg. Qed.
Lemma q_len l : (l < j)%nat -> 0 <= lenR M (q l) <= 101 / 100.
Proof. intros Hl. split; [apply lenR_nonneg|]. pose proof (LQ l Hl) as H. apply Rabs_le_inv in H. rewrite UV in H. lra. Qed.
Lemma r_err l : (l < j)%nat -> Rabs (r l - dotR M (q l) a) <= 21 / 10 * Mr * u * A + 2 * Mr * h.
Proof.
  intros Hl. eapply Rle_trans; [apply HR; exact Hl|]. apply Rplus_le_compat_r. pose proof (abs_cs M (q l) a) as C. fold A in C. pose proof (q_len l Hl) as Q. pose proof A0.
  assert (X : rsum M (fun i => Rabs (q l i * a i)) <= 101 / 100 * A) by nra.
  assert (0 <= Mr * u) by (apply Rmult_le_pos; lra). nra.
Qed.
Lemma mu_small : Mr * u <= / 16000. Proof. rewrite UV. lra. Qed.
Lemma h_small : 0 <= Mr * h * N <= u * w / 1000.
Proof.
  split; [apply Rmult_le_pos; [apply Rmult_le_pos; lra|lra]|].
  assert (X : / 2 ^ 60 <= / 2 ^ 40) by (apply Rinv_le; [apply pow_lt; lra|apply Rle_pow; [lra|lia]]).
  set (z := / 2 ^ 60) in *. clearbody z.
  assert (Z0 : 0 <= u * w) by (apply Rmult_le_pos; lra).
  assert (Y : h <= / 2 ^ 40 * (w * u)). { eapply Rle_trans; [exact HV|]. rewrite Rmult_assoc. apply Rmult_le_compat_r; lra. }
  apply Rle_trans with (1024 * 1024 * (/ 2 ^ 40 * (w * u))); [|lra].
  replace (Mr * h * N) with (Mr * N * h) by ring. apply Rmult_le_compat; [apply Rmult_le_pos; lra|exact HP|apply Rmult_le_compat; lra|exact Y].
Qed.
Lemma r_abs l : (l < j)%nat -> Rabs (r l) <= 102 / 100 * A + 2 * Mr * h.
Proof.
  intros Hl. pose proof (r_err l Hl) as E. pose proof (lenR_cs M (q l) a) as C. fold A in C. pose proof (q_len l Hl) as Q. pose proof A0 as A0.
  replace (r l) with (dotR M (q l) a + (r l - dotR M (q l) a)) by ring. eapply Rle_trans; [apply Rabs_triang|].
  assert (lenR M (q l) * A <= 101 / 100 * A) by (apply Rmult_le_compat_r; lra). pose proof mu_small.
  assert (Mr * u * A <= / 16000 * A) by (apply Rmult_le_compat_r; lra). nra.
Qed.
Let e i := v i - (a i - rsum j (fun l => q l i * r l)).
Lemma rsum_bound n f c : (forall i, (i < n)%nat -> f i <= c) -> rsum n f <= INR n * c.
Proof. intros H. rewrite <- rsum_const. apply rsum_le. exact H. Qed.
Lemma e_len : lenR M e <= 4 * N * N * u * A + u * w / 100.
Proof.
  eapply Rle_trans; [apply (lenR_le M e (fun i => 2 * N * u * (Rabs (a i) + rsum j (fun l => Rabs (q l i * r l))) + 2 * N * h)); intros i Hi; apply HVv; exact Hi|].
  eapply Rle_trans; [apply lenR_triangle|].
  pose proof h_small as HS. pose proof A0 as A0. pose proof mu_small as MS.
  assert (C2 : lenR M (fun _ => 2 * N * h) <= 2 * (Mr * h * N)).
  { eapply Rle_trans; [apply lenR_const; apply Rmult_le_pos; lra|]. replace (2 * (Mr * h * N)) with (Mr * (2 * N * h)) by ring.
    apply Rmult_le_compat_r; [apply Rmult_le_pos; lra|exact EM]. }
  assert (B : lenR M (fun i => rsum j (fun l => Rabs (q l i * r l))) <= (N - 1) * (104 / 100 * A + 21 / 10 * Mr * h)).
  { eapply Rle_trans; [apply (lenR_rsum M j (fun l i => Rabs (q l i * r l)))|].
    eapply Rle_trans; [apply (rsum_bound j _ (104 / 100 * A + 21 / 10 * Mr * h))|].
    - intros l Hl. rewrite (lenR_abs M (fun i => q l i * r l)). rewrite (lenR_ext M _ (fun i => r l * q l i)) by (intros; ring). rewrite lenR_scal.
      pose proof (r_abs l Hl) as RA. pose proof (q_len l Hl) as Q. pose proof (Rabs_pos (r l)).
      apply Rle_trans with ((102 / 100 * A + 2 * Mr * h) * (101 / 100)); [apply Rmult_le_compat; lra|].
      assert (0 <= Mr * h) by (apply Rmult_le_pos; lra). lra.
    - apply Rmult_le_compat_r; [|lra]. assert (0 <= Mr * h) by (apply Rmult_le_pos; lra). lra. }
  assert (C1 : lenR M (fun i => 2 * N * u * (Rabs (a i) + rsum j (fun l => Rabs (q l i * r l)))) <= 2 * N * u * (A + (N - 1) * (104 / 100 * A + 21 / 10 * Mr * h))).
  { rewrite lenR_scal, Rabs_pos_eq by (apply Rmult_le_pos; lra). apply Rmult_le_compat_l; [apply Rmult_le_pos; lra|].
    eapply Rle_trans; [apply lenR_triangle|]. apply Rplus_le_compat; [rewrite lenR_abs; apply Rle_refl|exact B]. }
  eapply Rle_trans; [apply Rplus_le_compat; [exact C1|exact C2]|].
  assert (K1 : 2 * N * u * (A + (N - 1) * (104 / 100 * A)) <= 4 * N * N * u * A).
  { replace (2 * N * u * (A + (N - 1) * (104 / 100 * A))) with (2 * N * u * A * (1 + (N - 1) * (104 / 100))) by ring.
    replace (4 * N * N * u * A) with (2 * N * u * A * (2 * N)) by ring. apply Rmult_le_compat_l; [|lra].
    apply Rmult_le_pos; [apply Rmult_le_pos; lra|exact A0]. }
  assert (K2 : 2 * N * u * ((N - 1) * (21 / 10 * Mr * h)) <= u * w / 1000).
  { replace (2 * N * u * ((N - 1) * (21 / 10 * Mr * h))) with (42 / 10 * ((N - 1) * u) * (Mr * h * N)) by field.
    assert (0 <= (N - 1) * u <= / 16000) by (split; [apply Rmult_le_pos; lra|rewrite UV; lra]).
    assert (42 / 10 * ((N - 1) * u) * (Mr * h * N) <= 1 * (Mr * h * N)) by (apply Rmult_le_compat_r; lra). lra. }
  lra.
Qed.
Lemma qv : Rabs (dotR M (q k) v) <= (8 * Mr + 14 + 5 * N * N) * u * A + 103 / 100 * N * dl * A + 2 * N * dl * (Mr * h) + u * w / 10.
Proof.
  pose proof A0 as A0. pose proof h_small as HS. pose proof (q_len k Hk) as QK. pose proof (r_err k Hk) as RE. pose proof (r_abs k Hk) as RA. pose proof e_len as EL. pose proof mu_small as MS.
  assert (EV : dotR M (q k) v = dotR M (q k) a - rsum j (fun l => dotR M (q k) (q l) * r l) + dotR M (q k) e).
  { rewrite <- (dotR_rsum M j (q k) q r). unfold dotR, e. rewrite <- rsum_minus. rewrite <- rsum_plus. apply rsum_ext. intros i _. ring. }
  set (s := fun l => if (l =? k)%nat then 0 else dotR M (q k) (q l) * r l).
  assert (ES : rsum j (fun l => dotR M (q k) (q l) * r l) = dotR M (q k) (q k) * r k + rsum j s).
  { rewrite (rsum_ext j _ (fun l => (if (l =? k)%nat then dotR M (q k) (q k) * r k else 0) + s l)).
    - rewrite rsum_plus. f_equal. rewrite (rsum_single j k (fun l => if (l =? k)%nat then dotR M (q k) (q k) * r k else 0) Hk); [rewrite Nat.eqb_refl; reflexivity|].
      intros l Hl Hne. apply Nat.eqb_neq in Hne. rewrite Hne. reflexivity.
    - intros l Hl. unfold s. destruct (Nat.eqb_spec l k) as [->|]; ring. }
  assert (BS : Rabs (rsum j s) <= (N - 1) * (dl * (102 / 100 * A + 2 * Mr * h))).
  { eapply Rle_trans; [apply rsum_abs|]. eapply Rle_trans; [apply (rsum_bound j _ (dl * (102 / 100 * A + 2 * Mr * h)))|].
    - intros l Hl. unfold s. destruct (Nat.eqb_spec l k) as [->|Hne].
      + rewrite Rabs_R0. apply Rmult_le_pos; [exact DP|]. assert (0 <= Mr * h) by (apply Rmult_le_pos; lra). lra.
      + rewrite Rabs_mult. apply Rmult_le_compat; try apply Rabs_pos; [apply HD; assumption|apply r_abs; exact Hl].
    - apply Rmult_le_compat_r; [|lra]. apply Rmult_le_pos; [exact DP|]. assert (0 <= Mr * h) by (apply Rmult_le_pos; lra). lra. }
  assert (BQ : Rabs (dotR M (q k) (q k) - 1) <= 41 / 10 * (Mr + 3) * u).
  { rewrite <- lenR_sq. set (L := lenR M (q k)) in *. pose proof (LQ k Hk) as H. fold L in H.
    replace (L * L - 1) with ((L - 1) * (L + 1)) by ring. rewrite Rabs_mult, (Rabs_pos_eq (L + 1)) by lra.
    apply Rle_trans with (2 * (Mr + 3) * u * (201 / 100)); [apply Rmult_le_compat; try apply Rabs_pos; lra|]. assert (0 <= (Mr + 3) * u) by (apply Rmult_le_pos; lra). lra. }
  assert (BE : Rabs (dotR M (q k) e) <= 101 / 100 * (4 * N * N * u * A + u * w / 100)).
  { eapply Rle_trans; [apply lenR_cs|]. apply Rmult_le_compat; try apply lenR_nonneg; [apply QK|exact EL]. }
  rewrite EV, ES.
  replace (dotR M (q k) a - (dotR M (q k) (q k) * r k + rsum j s) + dotR M (q k) e)
    with (- (r k - dotR M (q k) a) + (- ((dotR M (q k) (q k) - 1) * r k) + (- rsum j s + dotR M (q k) e))) by ring.
  eapply Rle_trans; [apply Rabs_triang|]. rewrite Rabs_Ropp.
  assert (B1 : Rabs (- ((dotR M (q k) (q k) - 1) * r k) + (- rsum j s + dotR M (q k) e)) <=
     41 / 10 * (Mr + 3) * u * (102 / 100 * A + 2 * Mr * h) + ((N - 1) * (dl * (102 / 100 * A + 2 * Mr * h)) + 101 / 100 * (4 * N * N * u * A + u * w / 100))).
  { eapply Rle_trans; [apply Rabs_triang|]. rewrite Rabs_Ropp, Rabs_mult. apply Rplus_le_compat; [apply Rmult_le_compat; try apply Rabs_pos; assumption|].
    eapply Rle_trans; [apply Rabs_triang|]. rewrite Rabs_Ropp. lra. }
  eapply Rle_trans; [apply Rplus_le_compat; [exact RE|exact B1]|].
  assert (UA : 0 <= u * A) by (apply Rmult_le_pos; lra).
  assert (T1 : 41 / 10 * (Mr + 3) * u * (2 * Mr * h) <= u * w / 1000).
  { replace (41 / 10 * (Mr + 3) * u * (2 * Mr * h)) with (82 / 10 * ((Mr + 3) * u) * (Mr * h)) by field.
    assert (0 <= (Mr + 3) * u <= / 16000) by (split; [apply Rmult_le_pos; lra|rewrite UV; lra]).
    assert (MH : 0 <= Mr * h <= Mr * h * N). { assert (0 <= Mr * h) by (apply Rmult_le_pos; lra). split; [lra|]. nra. }
    assert (82 / 10 * ((Mr + 3) * u) * (Mr * h) <= 1 * (Mr * h)) by (apply Rmult_le_compat_r; lra). lra. }
  assert (T2 : 2 * Mr * h <= u * w / 500).
  { assert (MH : 0 <= Mr * h <= Mr * h * N). { assert (0 <= Mr * h) by (apply Rmult_le_pos; lra). split; [lra|]. nra. } lra. }
  assert (T3 : (N - 1) * (dl * (102 / 100 * A + 2 * Mr * h)) <= 103 / 100 * N * dl * A + 2 * N * dl * (Mr * h)).
  { assert (0 <= dl * A) by (apply Rmult_le_pos; lra). assert (0 <= Mr * h) by (apply Rmult_le_pos; lra). assert (0 <= dl * (Mr * h)) by (apply Rmult_le_pos; lra). nra. }
  assert (T4 : 21 / 10 * Mr * u * A + 41 / 10 * (Mr + 3) * u * (102 / 100 * A) <= (8 * Mr + 14) * u * A).
  { replace (21 / 10 * Mr * u * A + 41 / 10 * (Mr + 3) * u * (102 / 100 * A)) with ((21 / 10 * Mr + 41 / 10 * (Mr + 3) * (102 / 100)) * (u * A)) by ring.
    replace ((8 * Mr + 14) * u * A) with ((8 * Mr + 14) * (u * A)) by ring. apply Rmult_le_compat_r; [exact UA|lra]. }
  assert (T5 : 101 / 100 * (4 * N * N * u * A) <= 5 * N * N * u * A).
  { assert (0 <= N * N * (u * A)) by (apply Rmult_le_pos; [nra|exact UA]). nra. }
  assert (UW : 0 <= u * w) by (apply Rmult_le_pos; lra).
  lra.
Qed.
(** The new column against an old one. *)
Lemma column_step K : 1 <= K -> A <= K * w -> Rabs (dotR M (q k) p) <= (8 * Mr + 5 * N * N + 18) * u * K + 2 * N * K * dl.
Proof.
  intros HK HA. pose proof A0 as A0. pose proof qv as QV. pose proof h_small as HS. pose proof (q_len k Hk) as QK. pose proof mu_small as MS.
  assert (EP : dotR M (q k) p = dotR M (q k) v / w + dotR M (q k) (fun i => p i - v i / w)).
  { unfold dotR, Rdiv. rewrite <- rsum_scal_r, <- rsum_plus. apply rsum_ext. intros i _. ring. }
  assert (UW : 0 < u * w) by (apply Rmult_lt_0_compat; lra).
  assert (MH : 0 <= Mr * h <= Mr * h * N). { assert (0 <= Mr * h) by (apply Rmult_le_pos; lra). split; [lra|]. nra. }
  assert (LP : lenR M (fun i => p i - v i / w) <= 21 / 10 * u).
  { eapply Rle_trans; [apply (lenR_le M _ (fun i => u * Rabs (v i / w) + h)); intros i Hi; apply HPp; exact Hi|].
    eapply Rle_trans; [apply lenR_triangle|].
    assert (X : lenR M (fun i => u * Rabs (v i / w)) <= u * 2).
    { rewrite lenR_scal, (Rabs_pos_eq u) by lra. apply Rmult_le_compat_l; [lra|]. rewrite lenR_abs. rewrite (lenR_ext M _ (fun i => / w * v i)) by (intros; unfold Rdiv; ring).
      rewrite lenR_scal, Rabs_pos_eq by (apply Rlt_le, Rinv_0_lt_compat; lra). apply (Rmult_le_reg_l w); [exact WP|]. rewrite <- Rmult_assoc, Rinv_r by lra. lra. }
    assert (Y : lenR M (fun _ => h) <= u / 10).
    { eapply Rle_trans; [apply lenR_const; exact HP|]. apply Rle_trans with (Mr * h); [apply Rmult_le_compat_r; lra|].
      assert (X2 : / 2 ^ 60 <= / 2 ^ 40) by (apply Rinv_le; [apply pow_lt; lra|apply Rle_pow; [lra|lia]]).
      assert (X3 : h <= / 2 ^ 40 * u) by (eapply Rle_trans; [exact HV2|]; apply Rmult_le_compat_r; lra).
      apply Rle_trans with (1024 * (/ 2 ^ 40 * u)); [apply Rmult_le_compat; lra|lra]. }
    lra. }
  assert (BP : Rabs (dotR M (q k) (fun i => p i - v i / w)) <= 101 / 100 * (21 / 10 * u)).
  { eapply Rle_trans; [apply lenR_cs|]. apply Rmult_le_compat; try apply lenR_nonneg; [apply QK|exact LP]. }
  rewrite EP. eapply Rle_trans; [apply Rabs_triang|].
  assert (BV : Rabs (dotR M (q k) v / w) <= (8 * Mr + 14 + 5 * N * N) * u * K + 103 / 100 * N * dl * K + dl / 100 + u / 10).
  { unfold Rdiv at 1. rewrite Rabs_mult, Rabs_inv, (Rabs_pos_eq w) by lra. apply (Rmult_le_reg_r w); [exact WP|]. rewrite Rmult_assoc, Rinv_l, Rmult_1_r by lra.
    eapply Rle_trans; [exact QV|].
    assert (C1 : (8 * Mr + 14 + 5 * N * N) * u * A <= (8 * Mr + 14 + 5 * N * N) * u * (K * w)) by (apply Rmult_le_compat_l; [apply Rmult_le_pos; nra|exact HA]).
    assert (C2 : 103 / 100 * N * dl * A <= 103 / 100 * N * dl * (K * w)) by (apply Rmult_le_compat_l; [apply Rmult_le_pos; nra|exact HA]).
    assert (C3 : 2 * N * dl * (Mr * h) <= dl / 100 * w).
    { replace (2 * N * dl * (Mr * h)) with (dl * (2 * (Mr * h * N))) by ring. replace (dl / 100 * w) with (dl * (w / 100)) by (field). apply Rmult_le_compat_l; [exact DP|].
      assert (u * w <= 1 * w) by (apply Rmult_le_compat_r; rewrite ?UV; lra). lra. }
    lra. }
  assert (NK : 1 <= N * K) by nra. assert (0 <= dl * (N * K - 1)) by (apply Rmult_le_pos; lra). assert (0 <= u * (K - 1)) by (apply Rmult_le_pos; lra). lra.
Qed.
End Column.

(** ** The run *)
Section Cols.
Context (M N : nat) (fA fQ fR : nat -> nat -> f32).
Context (HC : forall c, (c < N)%nat -> col_ok M fA fQ fR c) (HMN : (N <= M)%nat) (Hn : (Z.of_nat M <= 2 ^ 10)%Z).
Context (FQ : forall r c, (r < M)%nat -> (c < N)%nat -> fin (fQ r c)) (FR : forall r c, (r < N)%nat -> (c < N)%nat -> fin (fR r c)).
Context (J : nat) (HJ : (J < N)%nat).
Context (B : forall c, (c <= J)%nat -> bp (-40) <= val (fR c c) <= bp 40).
Context (K : R) (HK : 1 <= K) (HA : forall c, (c <= J)%nat -> lenR M (fun i => val (fA i c)) <= K * val (fR c c)).
Let g := 2 * INR N * K.
Let c0 := (8 * INR M + 5 * INR N * INR N + 18) * uro * K.
Lemma pow_small i n : (i <= n)%nat -> (Z.of_nat n <= 2 ^ 10)%Z -> (1 + uro) ^ i - 1 <= 2 * INR n * uro /\ (1 + uro) ^ i <= 2.
Proof.
  intros Hi Hz. pose proof (INR_bound n Hz) as NB. pose proof uro_val as UV. pose proof uro_pos as UP.
  assert (BQ : (1 + uro) ^ i <= 1 + 2 * INR i * uro).
  { apply pow_bern; [lra|]. assert (INR i <= INR n) by (apply le_INR; exact Hi). rewrite UV. lra. }
  assert (IN : INR i <= INR n) by (apply le_INR; exact Hi).
  assert (INR i * uro <= INR n * uro) by (apply Rmult_le_compat_r; lra).
  assert (INR n * uro <= 1 / 4) by (rewrite UV; lra). lra.
Qed.
Lemma step_all j dl : (j <= J)%nat -> 0 <= dl ->
  (forall k l, (k < j)%nat -> (l < j)%nat -> l <> k -> Rabs (dotR M (fun i => val (fQ i k)) (fun i => val (fQ i l))) <= dl) ->
  forall k, (k < j)%nat -> Rabs (dotR M (fun i => val (fQ i k)) (fun i => val (fQ i j))) <= c0 + g * dl.
Proof.
  intros Hj DP HD k Hk. pose proof (INR_bound M Hn) as MB. pose proof uro_val as UV. pose proof uro_pos as UP. pose proof eta_pos as EP.
  assert (MI : 1 <= INR M) by (change 1 with (INR 1); apply le_INR; lia).
  assert (NI : INR j + 1 <= INR N) by (rewrite <- S_INR; apply le_INR; lia).
  assert (NM : INR N <= INR M) by (apply le_INR; exact HMN). pose proof (pos_INR j) as J0.
  pose proof (B j Hj) as Bj. destruct (HC j ltac:(lia)) as (H1 & H2 & H3).
  assert (FRc : forall c, (c < N)%nat -> fin (fR c c)) by (intros; apply FR; assumption).
  assert (WP : 0 < val (fR j j)) by (pose proof (bpow_gt_0 radix2 (-40)); lra).
  assert (ET : eta <= / 2 ^ 60 * bp (-40) * uro).
  { rewrite <- eta_bpow, UV. replace (/ 16777216) with (bp (-24)) by (cbn; lra). replace (/ 2 ^ 60) with (bp (-60)) by (change (-60)%Z with (Z.opp 60); rewrite bpow_opp, (bpow_pow 60); reflexivity).
    change (/ 2) with (bp (-1)). rewrite <- !bpow_plus. apply bpow_le. lia. }
  assert (P100 : 0 < / 2 ^ 60) by (apply Rinv_0_lt_compat, pow_lt; lra).
  assert (B1 : bp (-40) <= 1) by (change 1 with (bp 0); apply bpow_le; lia).
  replace (c0 + g * dl) with ((8 * INR M + 5 * INR N * INR N + 18) * uro * K + 2 * INR N * K * dl) by (unfold c0, g; ring).
  apply (column_step M j k (fun l i => val (fQ i l)) (fun l => val (fR l j)) (fun i => val (fA i j)) (fun i => val (vv fA fQ fR j j i)) _ (val (fR j j)) uro eta (INR N) (INR M) dl); try assumption; try lra.
  - eapply Rle_trans; [exact ET|]. apply Rmult_le_compat_r; [lra|]. apply Rmult_le_compat_l; lra.
  - eapply Rle_trans; [exact ET|]. apply Rmult_le_compat_r; [lra|]. rewrite <- (Rmult_1_r (/ 2 ^ 60)) at 2. apply Rmult_le_compat_l; lra.
  - intros l Hl. pose proof (unit_col M N fA fQ fR l HC HMN ltac:(lia) Hn ltac:(intros; apply FQ; lia) ltac:(apply FR; lia) ltac:(apply B; lia)) as X.
    eapply Rle_trans; [exact X|]. rewrite UV. lra.
  - intros l Hl. pose proof (ssum_error (fun i => fQ i l) (fun i => fA i j) M) as X. cbv beta in X. rewrite <- (H1 l Hl) in X. specialize (X ltac:(apply FR; lia)).
    unfold dotR. eapply Rle_trans; [exact X|]. unfold dot_bound. destruct (pow_small M M (Nat.le_refl M) Hn) as (P1 & P2).
    assert (0 <= rsum M (fun i => Rabs (val (fQ i l) * val (fA i j)))) by (apply rsum_nonneg; intros; apply Rabs_pos).
    apply Rplus_le_compat; [apply Rmult_le_compat_r; assumption|]. replace (2 * INR M * eta) with (INR M * eta * 2) by ring. apply Rmult_le_compat_l; [apply Rmult_le_pos; lra|exact P2].
  - intros i Hi. pose proof (v_err M N fA fQ fR HC FQ FRc j i ltac:(lia) Hi j (Nat.le_refl j)) as X. unfold Eres, Ssum in X.
    eapply Rle_trans; [exact X|]. destruct (pow_small (S j) N ltac:(lia) ltac:(lia)) as (P1 & _). destruct (pow_small j N ltac:(lia) ltac:(lia)) as (_ & P2).
    assert (0 <= rsum j (fun l => Rabs (val (fQ i l) * val (fR l j)))) by (apply rsum_nonneg; intros; apply Rabs_pos). pose proof (Rabs_pos (val (fA i j))).
    apply Rplus_le_compat; [apply Rmult_le_compat_r; [lra|exact P1]|]. replace (2 * INR N * eta) with (INR N * eta * 2) by ring.
    assert (0 <= (1 + uro) ^ j) by (apply pow_le; lra).
    apply Rmult_le_compat; try assumption; [apply Rmult_le_pos; lra|]. apply Rmult_le_compat_r; lra.
  - set (a := vv fA fQ fR j j) in *. rewrite H2 in Bj.
    assert (FS : fin (b32_sqrt mode_NE (ssum M (fun k => smul (a k) (a k))))) by (rewrite <- H2; apply FR; lia).
    destruct (len_range M a Hn FS Bj) as (HL & Ha). destruct (len_rel M a Ha Hn HL) as (r & t & E & F & Ht & Et).
    cbn [ssqrt F32Scalar] in E. injection E as E. assert (E1 : fR j j = r) by (rewrite H2; exact E). rewrite E1, Et.
    pose proof (L_pos M a HL) as LP. set (L := lenR M (fun i => val (a i))) in *.
    assert (TT : Rabs t <= / 4) by (eapply Rle_trans; [exact Ht|]; rewrite UV; lra). apply Rabs_le_inv in TT. nra.
  - intros i Hi. specialize (H3 i Hi). pose proof (FQ i j Hi ltac:(lia)) as F1. rewrite H3 in F1. destruct (fin_div _ _ F1 ltac:(apply FR; lia)) as (_ & _ & d & e & Hd & He & Ed).
    rewrite <- H3 in Ed. rewrite Ed. set (x := val (vv fA fQ fR j j i) / val (fR j j)).
    replace (x * (1 + d) + e - x) with (d * x + e) by ring. eapply Rle_trans; [apply Rabs_triang|]. rewrite Rabs_mult.
    apply Rplus_le_compat; [apply Rmult_le_compat_r; [apply Rabs_pos|exact Hd]|exact He].
  - intros l Hl Hne. apply HD; assumption.
  - apply HA; exact Hj.
Qed.
Lemma g_ge : 2 <= g.
Proof. unfold g. assert (1 <= INR N) by (change 1 with (INR 1); apply le_INR; lia). assert (1 * 1 <= INR N * K) by (apply Rmult_le_compat; lra). lra. Qed.
Lemma c0_pos : 0 <= c0.
Proof. unfold c0. pose proof (pos_INR M). pose proof (pos_INR N). pose proof uro_pos. apply Rmult_le_pos; [|lra]. apply Rmult_le_pos; [nra|lra]. Qed.
Lemma dot_sym n a b : dotR n a b = dotR n b a.
Proof. unfold dotR. apply rsum_ext. intros; ring. Qed.
Lemma all_pairs : forall j, (j <= J)%nat ->
  (forall k l, (k < l)%nat -> (l <= j)%nat -> Rabs (dotR M (fun i => val (fQ i k)) (fun i => val (fQ i l))) <= c0 * (2 * g ^ (l - 1) - 1)).
Proof.
  pose proof g_ge as G. pose proof c0_pos as C.
  assert (GP : forall a b, (a <= b)%nat -> g ^ a <= g ^ b) by (intros; apply Rle_pow; [lra|assumption]).
  assert (G1 : forall n, 1 <= g ^ n) by (intros; apply pow_R1_Rle; lra).
  induction j as [|j IH]; intros Hj k l Hkl Hl; [lia|].
  destruct (Nat.eq_dec l (S j)) as [->|]; [|apply IH; lia].
  specialize (IH ltac:(lia)). destruct j as [|j].
  - replace k with 0%nat by lia. eapply Rle_trans; [apply (step_all 1 0 Hj (Rle_refl 0)); [|lia]|].
    + intros k' l' H1 H2 H3. lia.
    + cbn. lra.
  - eapply Rle_trans; [apply (step_all (S (S j)) (c0 * (2 * g ^ j - 1)) Hj)|].
    + apply Rmult_le_pos; [exact C|]. pose proof (G1 j). lra.
    + intros k' l' H1 H2 H3. destruct (lt_dec k' l') as [H4|H4].
      * eapply Rle_trans; [apply (IH k' l' H4); lia|]. apply Rmult_le_compat_l; [exact C|]. pose proof (GP (l' - 1)%nat j ltac:(lia)). lra.
      * rewrite dot_sym. eapply Rle_trans; [apply (IH l' k'); lia|]. apply Rmult_le_compat_l; [exact C|]. pose proof (GP (k' - 1)%nat j ltac:(lia)). lra.
    + exact Hkl.
    + replace (S (S j) - 1)%nat with (S j) by lia. cbn [pow].
      replace (c0 + g * (c0 * (2 * g ^ j - 1))) with (c0 * (2 * (g * g ^ j) - (g - 1))) by ring. apply Rmult_le_compat_l; [exact C|lra].
Qed.
End Cols.

(** If the length of each column of A is at most K times the diagonal cell of R
    that belongs to it, then the columns of Q are orthogonal up to a bound that
    depends on K, M, N and the precision only.  (Without such a K:
    [C171_columns_may_not_be_orthogonal].) *)
Theorem C171_qr_orthogonality :
  forall (cfg : Cfg) (M N : nat) (A Q0 R0 Q U : list f32),
  (N <= M)%nat -> (Z.of_nat M <= 2 ^ 10)%Z -> length A = (M * N)%nat -> length Q0 = (M * M)%nat -> length R0 = (N * N)%nat ->
  qr_decompose M N A Q0 R0 = Ok (Q, U) -> (forall x, In x Q -> fin x) -> (forall x, In x U -> fin x) ->
  forall (K : R) (j k : nat), 1 <= K -> (k < j)%nat -> (j < N)%nat ->
  (forall c, (c <= j)%nat -> / 2 ^ 40 <= mcells N U c c <= 2 ^ 40 /\ lenR M (fun i => mcells M A i c) <= K * mcells N U c c) ->
  Rabs (dotR M (fun i => mcells M Q i k) (fun i => mcells M Q i j)) <=
    (8 * INR M + 5 * INR N * INR N + 18) * K * (2 * INR N * K) ^ (j - 1) / 2 ^ 23.
Proof.
  intros cfg M N A Q0 R0 Q U HMN Hn LA LQ LR EQ FQ FU K j k HK Hkj Hj B. pose proof (repM_nth M N A f32_zero LA) as HA.
  destruct (qr_run M N A _ HA HMN Q0 R0 LQ LR) as (Q1 & U1 & fQ & fR & E & HQ & HU & HC & HZ & HT).
  rewrite EQ in E. injection E as -> ->.
  assert (E4 : / 2 ^ 40 = bp (-40)) by (change (-40)%Z with (Z.opp 40); rewrite bpow_opp, (bpow_pow 40); reflexivity).
  assert (E5 : 2 ^ 40 = bp 40) by exact (eq_sym (bpow_pow 40)). rewrite E4, E5 in B.
  set (fA := fun i j => nth (j * M + i) A f32_zero) in *.
  assert (FQ' : forall r c, (r < M)%nat -> (c < N)%nat -> fin (fQ r c)) by (intros; apply (rep_fin M M Q1 fQ HQ FQ); lia).
  assert (FR' : forall r c, (r < N)%nat -> (c < N)%nat -> fin (fR r c)) by (intros; apply (rep_fin N N U1 fR HU FU); lia).
  assert (ED : dotR M (fun i => mcells M Q1 i k) (fun i => mcells M Q1 i j) = dotR M (fun i => val (fQ i k)) (fun i => val (fQ i j))).
  { unfold dotR. apply rsum_ext. intros i Hi. rewrite !(rep_cells M M Q1 fQ HQ) by lia. reflexivity. }
  rewrite ED.
  pose proof (all_pairs M N fA fQ fR HC HMN Hn FQ' FR' j Hj) as X.
  specialize (X ltac:(intros c Hc; destruct (B c Hc) as [B1 _]; rewrite (rep_cells N N U1 fR HU) in B1 by lia; exact B1) K HK).
  specialize (X ltac:(intros c Hc; destruct (B c Hc) as [_ B1]; rewrite (rep_cells N N U1 fR HU) in B1 by lia; rewrite (lenR_ext M _ (fun i => mcells M A i c)) by (intros i Hi; symmetry; apply (rep_cells M N A fA HA); lia); exact B1)).
  specialize (X j (Nat.le_refl j) k j Hkj (Nat.le_refl j)).
  eapply Rle_trans; [exact X|]. pose proof (c0_pos M N K HK) as CP. cbv zeta in CP.
  set (G := (2 * INR N * K) ^ (j - 1)) in *. set (C := (8 * INR M + 5 * INR N * INR N + 18) * uro * K) in *.
  apply Rle_trans with (C * (2 * G)); [apply Rmult_le_compat_l; [exact CP|lra]|]. unfold C. rewrite uro_val. lra.
Qed.
Print Assumptions C171_qr_orthogonality.

(** The hypotheses are met by A = (1 1; 0 1) with K = 2. *)
Example C171_partial_hypotheses_met :
  let A := [f32_one; f32_zero; f32_one; f32_one] in
  exists Q U, qr_decompose (cfg := Build_Cfg true) 2 2 A (repeat f32_zero 4) (repeat f32_zero 4) = Ok (Q, U) /\
  (forall x, In x Q -> fin x) /\ (forall x, In x U -> fin x) /\
  (forall c, (c <= 1)%nat -> / 2 ^ 40 <= mcells 2 U c c <= 2 ^ 40 /\ lenR 2 (fun i => mcells 2 A i c) <= 2 * mcells 2 U c c).
Proof.
  intros A.
  assert (X : match qr_decompose (cfg := Build_Cfg true) 2 2 A (repeat f32_zero 4) (repeat f32_zero 4) with
    Ok (q, r) => forallb (is_finite 24 128) (q ++ r) && (bits_of_b32 (nth 0 r f32_zero) =? bits_of_b32 f32_one)%Z && (bits_of_b32 (nth 3 r f32_zero) =? bits_of_b32 f32_one)%Z | _ => false end = true) by (vm_compute; reflexivity).
  destruct (qr_decompose (cfg := Build_Cfg true) 2 2 A (repeat f32_zero 4) (repeat f32_zero 4)) as [[Q U]| | |]; try discriminate X.
  apply andb_true_iff in X as [X X3]. apply andb_true_iff in X as [X1 X2]. rewrite forallb_forall in X1. exists Q, U. split; [reflexivity|].
  split; [intros x Hx; apply X1, in_or_app; left; exact Hx|]. split; [intros x Hx; apply X1, in_or_app; right; exact Hx|].
  apply Z.eqb_eq in X2, X3. apply bits32_inj in X2, X3. assert (1 <= 2 ^ 40) by (apply pow_R1_Rle; lra).
  assert (/ 2 ^ 40 <= / 1) by (apply Rinv_le; lra).
  assert (V1 : val f32_one = 1) by apply val_one. assert (V0 : val f32_zero = 0) by reflexivity.
  assert (S4 : sqrt (2 * 2) = 2) by (apply sqrt_square; lra).
  intros c Hc. destruct c as [|[|c]]; [| |lia]; unfold mcells; cbn [Nat.mul Nat.add]; rewrite ?X2, ?X3, V1; (split; [lra|]);
    unfold lenR, dotR, A; cbn [rsum nth Nat.mul Nat.add]; rewrite ?V1, ?V0; rewrite ?Rmult_1_r; (apply (Rle_trans _ (sqrt (2 * 2))); [apply sqrt_le_1_alt; lra|lra]).
Qed.
