(** C145: float matrices whose members accumulate in double. *)
From Coq Require Import ZArith Reals Lra Psatz Bool.
From Flocq Require Import Core.Core IEEE754.BinarySingleNaN IEEE754.Binary IEEE754.Bits.
From Verif Require Import InstF InstF32 MFloat MFloat2 LVector LMatrix LMatrixR Spec Spec2 LSum PMatrix4 PMatrix5 PMatrix6 PF32 LF32 PF32b Spec10f LExt32 LF32d PF32e.
From Verif Require PFloat LFloat PFloat2.
Local Open Scope R_scope.
Notation fin64 := PFloat.fin.
Notation v64 := PFloat.val.
Local Instance vexp64m : Valid_exp (FLT_exp (-1074) 53).
Proof. apply FLT_exp_valid. reflexivity. Qed.
Local Instance vnem : Valid_rnd (Znearest (fun x => negb (Z.even x))).
Proof. apply valid_rnd_N. Qed.

(** Double sums of terms of either sign. *)
Lemma dsum_err (x : nat -> f64) (n : nat) : (Z.of_nat n <= 2 ^ 20)%Z ->
  (forall i, (i < n)%nat -> fin64 (x i) /\ Rabs (v64 (x i)) <= bpow radix2 130) ->
  fin64 (dsum n x) /\ Rabs (v64 (dsum n x)) <= INR n * bpow radix2 130 /\
  Rabs (v64 (dsum n x) - rsum n (fun i => v64 (x i))) <= ((1 + u64) ^ n - 1) * rsum n (fun i => Rabs (v64 (x i))).
Proof.
  pose proof PFloat.uro_pos as UP.
  induction n as [|n IH]; intros Hn H.
  - cbn [dsum rsum INR pow]. assert (E : v64 f64_zero = 0) by reflexivity. rewrite E. split; [reflexivity|]. rewrite Rminus_0_r, Rabs_R0. lra.
  - destruct IH as (F & B & R0); [lia|intros; apply H; lia|]. destruct (H n ltac:(lia)) as (Fx & Bx). cbn [dsum rsum].
    set (s := dsum n x) in *. set (S0 := rsum n (fun i => v64 (x i))) in *. set (A0 := rsum n (fun i => Rabs (v64 (x i)))) in *.
    assert (SA : Rabs S0 <= A0) by apply rsum_abs.
    assert (Hb : Rabs (v64 s + v64 (x n)) <= INR (S n) * bpow radix2 130).
    { eapply Rle_trans; [apply Rabs_triang|]. rewrite S_INR. lra. }
    pose proof (LFloat.rnd_le_scaled _ (S n) 130 ltac:(lia) ltac:(lia) Hb) as RB.
    destruct (LFloat.plus_fin s (x n) F Fx) as (F2 & E2).
    { eapply Rle_lt_trans; [exact RB|]. apply Rle_lt_trans with (bpow radix2 21 * bpow radix2 130); [|rewrite <- bpow_plus; apply bpow_lt; lia].
      apply Rmult_le_compat_r; [apply bpow_ge_0|]. change (bpow radix2 21) with (IZR (2 ^ 21)). rewrite INR_IZR_INZ. apply IZR_le. lia. }
    destruct (PFloat.plus_error s (x n)) as (d & Hd & Ed). rewrite E2. split; [exact F2|]. split; [exact RB|].
    rewrite Ed. set (v := v64 (x n)) in *. set (w := v64 s) in *.
    replace ((w + v) * (1 + d) - (S0 + v)) with ((w - S0) * (1 + d) + (S0 + v) * d) by ring.
    eapply Rle_trans; [apply Rabs_triang|]. rewrite !Rabs_mult.
    set (q := (1 + u64) ^ n) in *. assert (Q : 1 <= q) by (apply pow_R1_Rle; lra). change ((1 + u64) ^ S n) with ((1 + u64) * q).
    assert (D1 : Rabs (1 + d) <= 1 + u64) by (eapply Rle_trans; [apply Rabs_triang|]; rewrite Rabs_R1; lra).
    assert (A1 : Rabs (w - S0) * Rabs (1 + d) <= ((q - 1) * A0) * (1 + u64)) by (apply Rmult_le_compat; try apply Rabs_pos; assumption).
    assert (A2 : Rabs (S0 + v) * Rabs d <= (A0 + Rabs v) * u64).
    { apply Rmult_le_compat; try apply Rabs_pos; [|exact Hd]. eapply Rle_trans; [apply Rabs_triang|]. lra. }
    assert (A3 : 0 <= (q - 1) * (1 + u64) * Rabs v) by (apply Rmult_le_pos; [apply Rmult_le_pos; lra|apply Rabs_pos]).
    nra.
Qed.
(** Sums of integer multiples of one power of two are exact. *)
Lemma fmt_mult (z e : Z) : (Z.abs z < 2 ^ 53)%Z -> (-1074 <= e)%Z -> generic_format radix2 (FLT_exp (-1074) 53) (IZR z * bpow radix2 e).
Proof. intros Hz He. apply generic_format_FLT. apply (FLT_spec _ _ _ _ (Float radix2 z e)); [reflexivity|exact Hz|exact He]. Qed.
Fixpoint zsum (n : nat) (f : nat -> Z) : Z := match n with O => 0%Z | S k => (zsum k f + f k)%Z end.
Lemma zsum_IZR n f : IZR (zsum n f) = rsum n (fun i => IZR (f i)).
Proof. induction n as [|n IH]; [reflexivity|]. cbn [zsum rsum]. rewrite plus_IZR, IH. reflexivity. Qed.
Lemma dsum_exact (x : nat -> f64) (z : nat -> Z) (e : Z) (n : nat) : (-1074 <= e <= 900)%Z ->
  (forall i, (i < n)%nat -> fin64 (x i) /\ v64 (x i) = IZR (z i) * bpow radix2 e) ->
  rsum n (fun i => IZR (Z.abs (z i))) < IZR (2 ^ 53) ->
  fin64 (dsum n x) /\ v64 (dsum n x) = IZR (zsum n z) * bpow radix2 e.
Proof.
  intros He. induction n as [|n IH]; intros H HB.
  - cbn [dsum zsum]. split; [reflexivity|]. rewrite Rmult_0_l. reflexivity.
  - cbn [rsum] in HB. assert (P : 0 <= IZR (Z.abs (z n))) by (apply (IZR_le 0); lia).
    destruct IH as (F & E); [intros; apply H; lia|lra|]. destruct (H n ltac:(lia)) as (Fx & Ex). cbn [dsum zsum].
    assert (ZB : (Z.abs (zsum n z + z n) < 2 ^ 53)%Z).
    { apply lt_IZR. eapply Rle_lt_trans; [|exact HB]. rewrite !abs_IZR, plus_IZR, zsum_IZR. eapply Rle_trans; [apply Rabs_triang|].
      apply Rplus_le_compat_r. eapply Rle_trans; [apply rsum_abs|]. apply rsum_le. intros i Hi. rewrite abs_IZR. lra. }
    assert (EQ : v64 (dsum n x) + v64 (x n) = IZR (zsum n z + z n) * bpow radix2 e) by (rewrite E, Ex, plus_IZR; ring).
    assert (G : rnd64 (v64 (dsum n x) + v64 (x n)) = IZR (zsum n z + z n) * bpow radix2 e).
    { rewrite EQ. apply round_generic; [exact vnem|]. apply fmt_mult; [exact ZB|lia]. }
    destruct (LFloat.plus_fin (dsum n x) (x n) F Fx) as (F2 & E2).
    { rewrite G, Rabs_mult, (Rabs_pos_eq (bpow radix2 e)) by apply bpow_ge_0. apply Rlt_le_trans with (bpow radix2 53 * bpow radix2 e).
      - apply Rmult_lt_compat_r; [apply bpow_gt_0|]. rewrite <- abs_IZR. change (bpow radix2 53) with (IZR (2 ^ 53)). apply IZR_lt. exact ZB.
      - rewrite <- bpow_plus. apply bpow_le. lia. }
    rewrite E2, G. split; [exact F2|reflexivity].
Qed.
Lemma for_dsum (n : nat) (x : nat -> f64) (body : nat -> f64 -> res f64) :
  (forall i a, (i < n)%nat -> body i a = Ok (b64_plus mode_NE a (x i))) -> for_ 0 n body f64_zero = Ok (dsum n x).
Proof.
  intros Hb. destruct (for_inv (fun k a => a = dsum k x) 0 n body f64_zero) as (a & E & ->); [lia|reflexivity| |exact E].
  intros k a Hk ->. rewrite Hb by lia. apply returns_ok. reflexivity.
Qed.
Lemma for_dsum2 (V U : nat) (x : nat -> nat -> f64) (body : nat -> nat -> f64 -> res f64) :
  (forall j i a, (j < V)%nat -> (i < U)%nat -> body j i a = Ok (b64_plus mode_NE a (x j i))) ->
  for_ 0 V (fun j => for_ 0 U (body j)) f64_zero = Ok (dsum (V * U) (fun t => x (t / U)%nat (t mod U)%nat)).
Proof.
  intros Hb. set (y := fun t => x (t / U)%nat (t mod U)%nat).
  destruct (for_inv (fun k a => a = dsum (k * U) y) 0 V (fun j => for_ 0 U (body j)) f64_zero) as (a & E & ->); [lia|reflexivity| |exact E].
  intros k a Hk ->.
  destruct (for_inv (fun q a => a = dsum (k * U + q) y) 0 U (body k) (dsum (k * U) y)) as (a & E & ->); [lia|rewrite Nat.add_0_r; reflexivity| |].
  - intros q a Hq ->. rewrite Hb by lia. apply returns_ok. rewrite Nat.add_succ_r. cbn [dsum]. unfold y. rewrite cell_div, cell_mod by lia. reflexivity.
  - rewrite E. apply returns_ok. f_equal. lia.
Qed.
Lemma gamma_small (n : nat) : (Z.of_nat n <= 2 ^ 20)%Z -> 0 <= (1 + u64) ^ n - 1 <= 2 * INR n * u64.
Proof.
  intros Hn. pose proof (PFloat2.INR_bound n Hn) as NB. pose proof u64_val as UV. pose proof PFloat.uro_pos. split.
  - assert (1 <= (1 + u64) ^ n) by (apply pow_R1_Rle; lra). lra.
  - pose proof (pow_bern u64 n ltac:(lra)) as P. assert (2 * INR n * u64 <= 1) by (rewrite UV; lra). specialize (P H0). lra.
Qed.

(** ** sum_elements() *)
Lemma sum_is_dsum (cfg : Cfg) M N (m : list f32) f : repM M N m f -> matf_sum_elements M N m = Ok (dsum (M * N) (fun k => f64_of_f32 (f (k mod M)%nat (k / M)%nat))).
Proof.
  intros Hm. pose proof (repM_repV_cell M N m f Hm) as Hv. unfold matf_sum_elements. apply for_dsum.
  intros i a Hi. rewrite (repV_rd _ _ _ _ Hv Hi). reflexivity.
Qed.
Theorem C145_float_sum_elements :
  forall (cfg : Cfg) (M N : nat) (m : list f32) (f : nat -> nat -> f32), repM M N m f ->
  (forall i j, (i < M)%nat -> (j < N)%nat -> fin (f i j)) ->
  exists s : f64, matf_sum_elements M N m = Ok s /\
  ((Z.of_nat (M * N) <= 2 ^ 20)%Z -> fin64 s /\
    Rabs (v64 s - rsumM M N (fun i j => val (f i j))) <= 2 * INR (M * N) * / 2 ^ 53 * rsumM M N (fun i j => Rabs (val (f i j)))) /\
  (forall (e : Z) (z : nat -> nat -> Z), (-1074 <= e <= 900)%Z -> (forall i j, (i < M)%nat -> (j < N)%nat -> val (f i j) = IZR (z i j) * bpow radix2 e) ->
    rsumM M N (fun i j => IZR (Z.abs (z i j))) < 2 ^ 53 -> fin64 s /\ v64 s = rsumM M N (fun i j => val (f i j))).
Proof.
  intros cfg M N m f Hm HF. rewrite (sum_is_dsum cfg M N m f Hm). set (x := fun k => f64_of_f32 (f (k mod M)%nat (k / M)%nat)).
  assert (IX : forall k, (k < M * N)%nat -> (k mod M < M)%nat /\ (k / M < N)%nat).
  { intros k Hk. assert (M <> 0)%nat by nia. split; [apply Nat.mod_upper_bound; assumption|apply Nat.div_lt_upper_bound; [assumption|exact Hk]]. }
  assert (X : forall k, (k < M * N)%nat -> fin64 (x k) /\ v64 (x k) = val (f (k mod M)%nat (k / M)%nat) /\ Rabs (v64 (x k)) <= bpow radix2 130).
  { intros k Hk. destruct (IX k Hk) as (I1 & I2). destruct (widen _ (HF _ _ I1 I2)) as (W1 & W2 & _). fold (x k) in W1, W2.
    split; [exact W1|]. split; [exact W2|]. unfold PFloat.val. rewrite W2. left. eapply Rlt_le_trans; [apply (abs_B2R_lt_emax 24 128)|]. apply bpow_le. lia. }
  exists (dsum (M * N) x). split; [reflexivity|]. split.
  - intros Hn. destruct (dsum_err x (M * N) Hn) as (F & _ & E); [intros k Hk; destruct (X k Hk) as (? & ? & ?); auto|].
    split; [exact F|]. rewrite <- !rsum_cells.
    rewrite (rsum_ext (M * N) (fun i => v64 (x i)) (fun k => val (f (k mod M)%nat (k / M)%nat))) in E by (intros k Hk; apply X, Hk).
    rewrite (rsum_ext (M * N) (fun i => Rabs (v64 (x i))) (fun k => Rabs (val (f (k mod M)%nat (k / M)%nat)))) in E by (intros k Hk; f_equal; apply X, Hk).
    eapply Rle_trans; [exact E|]. apply Rmult_le_compat_r; [apply rsum_nonneg; intros; apply Rabs_pos|]. pose proof (gamma_small (M * N) Hn) as [_ G]. exact G.
  - intros e z He Hz HB. destruct (dsum_exact x (fun k => z (k mod M)%nat (k / M)%nat) e (M * N) He) as (F & E).
    + intros k Hk. destruct (X k Hk) as (F & V & _), (IX k Hk) as (I1 & I2). split; [exact F|]. rewrite V. apply Hz; assumption.
    + rewrite (rsum_cells M N (fun i j => IZR (Z.abs (z i j)))). eapply Rlt_le_trans; [exact HB|]. rewrite pow_IZR. apply Rle_refl.
    + split; [exact F|]. rewrite E, zsum_IZR, <- rsum_scal_r, (rsum_cells M N (fun i j => IZR (z i j) * bpow radix2 e)).
      unfold rsumM. apply rsum_ext. intros i Hi. apply rsum_ext. intros j Hj. symmetry. apply Hz; assumption.
Qed.
Print Assumptions C145_float_sum_elements.

(** ** frobenius_norm() *)
Theorem C145_float_frobenius_norm :
  forall (cfg : Cfg) (M N : nat) (m : list f32) (f : nat -> nat -> f32), repM M N m f -> (Z.of_nat (M * N) <= 2 ^ 10)%Z ->
  (forall i j, (i < M)%nat -> (j < N)%nat -> fin (f i j) /\ Rabs (val (f i j)) <= 2 ^ 50) ->
  let F := sqrt (rsumM M N (fun i j => val (f i j) * val (f i j))) in
  / 2 ^ 50 <= F ->
  exists r : f64, matf_frobenius M N m = Ok r /\ fin64 r /\ Rabs (v64 r - F) <= / 2 ^ 23 * F.
Proof.
  intros cfg M N m f Hm Hn HF F HL. pose proof (repM_repV_cell M N m f Hm) as Hv.
  assert (EF : lenR (M * N) (fun k => val (f (k mod M)%nat (k / M)%nat)) = F).
  { unfold lenR, F. f_equal. unfold dotR. exact (rsum_cells M N (fun i j => val (f i j) * val (f i j))). }
  rewrite <- EF in *. apply (C124_float_norm_error cfg (M * N) m _ Hv Hn); [|exact HL].
  intros k Hk. assert (M <> 0)%nat by nia. apply HF; [apply Nat.mod_upper_bound; assumption|apply Nat.div_lt_upper_bound; [assumption|exact Hk]].
Qed.
Print Assumptions C145_float_frobenius_norm.

(** ** convolve() *)
Lemma conv_arith (n uk A P s S1 r eta0 g : R) : 0 <= n <= 1024 -> uk = / 16777216 -> 0 < eta0 -> 0 <= g <= / 4000000000 -> 0 <= A ->
  0 <= P <= (1 + uk) * A + n * eta0 -> Rabs (s - S1) <= g * P ->
  forall C, Rabs C <= A -> Rabs (S1 - C) <= uk * A + n * eta0 -> Rabs (r - s) <= uk * Rabs s + eta0 ->
  Rabs (r - C) <= / 4194304 * A + 4096 * eta0.
Proof.
  intros Hn -> He Hg HA HP H1 C HC H2 H3.
  assert (GP : g * P <= / 4000000000 * (2 * A + 1024 * eta0)).
  { apply Rmult_le_compat; [lra|lra|lra|]. nra. }
  assert (NE : n * eta0 <= 1024 * eta0) by (apply Rmult_le_compat_r; lra).
  apply Rabs_le_inv in H1, H2, HC.
  assert (SB : Rabs s <= 2 * A + 1200 * eta0) by (apply Rabs_le; lra).
  assert (SB2 : Rabs s <= (1 + / 1000000) * A + 1200 * eta0) by (apply Rabs_le; lra).
  apply Rabs_le_inv in H3. apply Rabs_le. lra.
Qed.
Theorem C145_float_convolve :
  forall (cfg : Cfg) (n u : nat) (m kernel : list f32) (img ker : nat -> nat -> f32),
  repM n n m img -> repM u u kernel ker -> (Z.of_nat (u * u) <= 2 ^ 10)%Z ->
  (forall i j, (i < n)%nat -> (j < n)%nat -> fin (img i j) /\ Rabs (val (img i j)) <= 2 ^ 50) ->
  (forall i j, (i < u)%nat -> (j < u)%nat -> fin (ker i j) /\ Rabs (val (ker i j)) <= 2 ^ 50) ->
  returns (matf_convolve n n u u m kernel) (fun r => exists g, repM n n r g /\ forall y x, (y < n)%nat -> (x < n)%nat ->
    fin (g y x) /\
    Rabs (val (g y x) - convR n u (fun i j => val (img i j)) (fun i j => val (ker i j)) y x) <=
      / 2 ^ 22 * convR n u (fun i j => Rabs (val (img i j))) (fun i j => Rabs (val (ker i j))) y x + / 2 ^ 138).
Proof.
  intros cfg n u m kernel img ker Hm Hk Hu HI HK.
  set (cy := fun (y j : nat) => clampI n (Z.of_nat y - Z.of_nat (u / 2) + Z.of_nat j)).
  set (p := fun y x j i => b32_mult mode_NE (ker j i) (img (cy y j) (cy x i))).
  set (sm := fun y x => dsum (u * u) (fun t => f64_of_f32 (p y x (t / u)%nat (t mod u)%nat))).
  set (g := fun y x => f32_of_f64 (sm y x)).
  assert (CY : forall y j, (y < n)%nat -> (cy y j < n)%nat) by (intros y j Hy; unfold cy, clampI; lia).
  assert (FL : forall h : nat -> nat -> R, rsum (u * u) (fun t => h (t / u)%nat (t mod u)%nat) = rsum u (fun j => rsum u (fun i => h j i))).
  { intros h. rewrite (rsum_cells u u (fun i j => h j i)). unfold rsumM. apply rsum_swap. }
  assert (IX : forall t, (t < u * u)%nat -> (t / u < u)%nat /\ (t mod u < u)%nat).
  { intros t Ht. assert (u <> 0)%nat by nia. split; [apply Nat.div_lt_upper_bound; [assumption|exact Ht]|apply Nat.mod_upper_bound; assumption]. }
  assert (N2 : (Z.of_nat (u * u) <= 2 ^ 20)%Z) by lia.
  pose proof (gamma_small (u * u) N2) as GS. pose proof u64_val as UV. pose proof uro_val as UV3. pose proof eta_pos as EP.
  assert (NB : 0 <= INR (u * u) <= 1024) by (split; [apply pos_INR|rewrite INR_IZR_INZ; apply IZR_le; lia]).
  assert (E50' : 2 ^ 50 = bpow radix2 50) by exact E50.
  (* one output cell *)
  assert (CELL : forall y x, (y < n)%nat -> (x < n)%nat -> fin (g y x) /\
    Rabs (val (g y x) - convR n u (fun i j => val (img i j)) (fun i j => val (ker i j)) y x) <=
      / 2 ^ 22 * convR n u (fun i j => Rabs (val (img i j))) (fun i j => Rabs (val (ker i j))) y x + / 2 ^ 138).
  { intros y x Hy Hx.
    set (w := fun j i => val (ker j i) * val (img (cy y j) (cy x i))).
    assert (PW : forall j i, (j < u)%nat -> (i < u)%nat -> fin64 (f64_of_f32 (p y x j i)) /\
      Rabs (v64 (f64_of_f32 (p y x j i))) <= bpow radix2 100 /\ Rabs (v64 (f64_of_f32 (p y x j i)) - w j i) <= uro * Rabs (w j i) + eta).
    { intros j i Hj Hi. destruct (HK j i Hj Hi) as (Fa & Ba), (HI (cy y j) (cy x i) (CY y j Hy) (CY x i Hx)) as (Fb & Bb). rewrite E50' in Ba, Bb.
      assert (PB : Rabs (w j i) <= bpow radix2 100).
      { change 100%Z with (50 + 50)%Z. unfold w. rewrite bpow_plus, Rabs_mult. apply Rmult_le_compat; try apply Rabs_pos; assumption. }
      pose proof (rnd_le _ 100 ltac:(lia) PB) as RB. unfold w in RB.
      destruct (mult_fin _ _ Fa Fb) as (Fm & Em). { eapply Rle_lt_trans; [exact RB|]. apply bpow_lt. lia. }
      fold (p y x j i) in Fm, Em. destruct (widen _ Fm) as (W1 & W2 & _). unfold PFloat.val. rewrite W2. change (B2R 24 128) with val. rewrite Em.
      split; [exact W1|]. split; [exact RB|]. unfold w. destruct (mult_error (val (ker j i)) (val (img (cy y j) (cy x i)))) as (d & e & Hd & He & ->).
      match goal with |- Rabs (?t * (1 + d) + e - _) <= _ => replace (t * (1 + d) + e - t) with (d * t + e) by ring end.
      eapply Rle_trans; [apply Rabs_triang|]. rewrite Rabs_mult. apply Rplus_le_compat; [apply Rmult_le_compat_r; [apply Rabs_pos|exact Hd]|exact He]. }
    set (X := fun t => f64_of_f32 (p y x (t / u)%nat (t mod u)%nat)).
    destruct (dsum_err X (u * u) N2) as (Fs & Bs & Es).
    { intros t Ht. destruct (IX t Ht) as (I1 & I2). destruct (PW _ _ I1 I2) as (A1 & A2 & _). split; [exact A1|]. eapply Rle_trans; [exact A2|]. apply bpow_le. lia. }
    change (dsum (u * u) X) with (sm y x) in Fs, Bs, Es.
    assert (Bs' : Rabs (v64 (sm y x)) <= bpow radix2 120).
    { apply Rabs_le_inv in Es. assert (BP : rsum (u * u) (fun t => Rabs (v64 (X t))) <= 1024 * bpow radix2 100).
      { eapply Rle_trans; [apply rsum_le with (g := fun _ => bpow radix2 100); intros t Ht; apply PW; apply IX; exact Ht|]. rewrite rsum_const. apply Rmult_le_compat_r; [apply bpow_ge_0|lra]. }
      pose proof (rsum_abs (u * u) (fun t => v64 (X t))) as RA. apply Rabs_le_inv in RA.
      assert (P0 : 0 <= rsum (u * u) (fun t => Rabs (v64 (X t)))) by (apply rsum_nonneg; intros; apply Rabs_pos).
      assert (G1 : ((1 + u64) ^ (u * u) - 1) * rsum (u * u) (fun t => Rabs (v64 (X t))) <= 1 * (1024 * bpow radix2 100)).
      { apply Rmult_le_compat; [lra|exact P0| |exact BP]. eapply Rle_trans; [apply GS|]. rewrite UV. lra. }
      replace (bpow radix2 120) with (1048576 * bpow radix2 100) by (change 120%Z with (20 + 100)%Z; rewrite bpow_plus; reflexivity).
      pose proof (bpow_gt_0 radix2 100). apply Rabs_le. lra. }
    pose proof (rnd_le _ 120 ltac:(lia) Bs') as RB.
    destruct (narrow _ Fs) as (N1 & _ & _). unfold rnx in N1. rewrite Rlt_bool_true in N1.
    2:{ eapply Rle_lt_trans; [exact RB|]. apply bpow_lt. lia. }
    fold (g y x) in N1.
    assert (FX : fin (g y x) /\ val (g y x) = rnd32 (v64 (sm y x))).
    { clear - N1. destruct (g y x); try discriminate N1; injection N1 as N1; split; first [reflexivity|exact N1]. }
    destruct FX as (FG & VG). split; [exact FG|]. rewrite VG.
    replace (/ 2 ^ 138) with (4096 * eta).
    2:{ unfold eta. replace 150%nat with (138 + 12)%nat by reflexivity. rewrite pow_add, Rinv_mult. replace (2 ^ 12) with 4096 by (cbn; lra). field; apply pow_nonzero; lra. }
    replace (/ 2 ^ 22) with (/ 4194304) by (cbn; lra).
    set (A := convR n u (fun i j => Rabs (val (img i j))) (fun i j => Rabs (val (ker i j))) y x).
    assert (EA : A = rsum (u * u) (fun t => Rabs (w (t / u)%nat (t mod u)%nat))).
    { rewrite (FL (fun j i => Rabs (w j i))). unfold A, convR. apply rsum_ext. intros j Hj. apply rsum_ext. intros i Hi. unfold w, cy. rewrite Rabs_mult. reflexivity. }
    replace (convR n u (fun i j => val (img i j)) (fun i j => val (ker i j)) y x) with (rsum (u * u) (fun t => w (t / u)%nat (t mod u)%nat)) by (rewrite (FL w); reflexivity).
    apply (conv_arith (INR (u * u)) uro A (rsum (u * u) (fun t => Rabs (v64 (X t)))) (v64 (sm y x)) (rsum (u * u) (fun t => v64 (X t))) _ eta ((1 + u64) ^ (u * u) - 1)).
    - exact NB.
    - exact UV3.
    - exact EP.
    - split; [apply GS|]. eapply Rle_trans; [apply GS|]. rewrite UV. lra.
    - rewrite EA. apply rsum_nonneg. intros; apply Rabs_pos.
    - split; [apply rsum_nonneg; intros; apply Rabs_pos|]. rewrite EA, <- rsum_scal, <- rsum_const, <- rsum_plus. apply rsum_le. intros t Ht.
      destruct (IX t Ht) as (I1 & I2). destruct (PW _ _ I1 I2) as (_ & _ & D). fold (X t) in D. set (q := w (t / u)%nat (t mod u)%nat) in *.
      replace (v64 (X t)) with (q + (v64 (X t) - q)) by ring. eapply Rle_trans; [apply Rabs_triang|]. lra.
    - exact Es.
    - rewrite EA. apply rsum_abs.
    - rewrite <- rsum_minus. eapply Rle_trans; [apply rsum_abs|]. rewrite EA, <- rsum_scal, <- rsum_const, <- rsum_plus. apply rsum_le. intros t Ht.
      destruct (IX t Ht) as (I1 & I2). destruct (PW _ _ I1 I2) as (_ & _ & D). exact D.
    - destruct (mult_error (v64 (sm y x)) 1) as (d & e & Hd & He & Ed). rewrite Rmult_1_r in Ed. rewrite Ed.
      replace (v64 (sm y x) * (1 + d) + e - v64 (sm y x)) with (d * v64 (sm y x) + e) by ring.
      eapply Rle_trans; [apply Rabs_triang|]. rewrite Rabs_mult. apply Rplus_le_compat; [apply Rmult_le_compat_r; [apply Rabs_pos|exact Hd]|exact He]. }
  (* the loops *)
  unfold matf_convolve. cbv zeta.
  eapply returns_bind; [apply mat_default_spec|]. intros d0 Hd.
  eapply returns_bind.
  - eapply (fill2_rc_all n n d0 _ g (fun y x temp =>
      sum <- for_ 0 u (fun j sum =>
        let srcy := clampZ (Z.of_nat y - Z.of_nat (u / 2) + Z.of_nat j) n in
        for_ 0 u (fun i sum =>
          let srcx := clampZ (Z.of_nat x - Z.of_nat (u / 2) + Z.of_nat i) n in
          k <- mat_at u u kernel j i ;; a <- mat_at n n m srcy srcx ;;
          Ok (b64_plus mode_NE sum (f64_of_f32 (b32_mult mode_NE k a)))) sum) f64_zero ;;
      mat_put n n temp y x (f32_of_f64 sum))); [exact Hd|].
    intros y x l' Hy Hx Hl'. cbv zeta.
    rewrite (for_dsum2 u u (fun j i => f64_of_f32 (p y x j i)) (fun j i sum => k <- mat_at u u kernel j i ;;
         a <- mat_at n n m (clampZ (Z.of_nat y - Z.of_nat (u / 2) + Z.of_nat j) n)
                           (clampZ (Z.of_nat x - Z.of_nat (u / 2) + Z.of_nat i) n) ;;
         Ok (b64_plus mode_NE sum (f64_of_f32 (b32_mult mode_NE k a))))).
    + cbn [bind]. apply mat_put_ok; auto.
    + intros j i a Hj Hi. rewrite (mat_at_ok u u kernel ker) by auto. cbn [bind].
      destruct (clampZ_spec (Z.of_nat y - Z.of_nat (u / 2) + Z.of_nat j) n ltac:(lia)) as [-> ?].
      destruct (clampZ_spec (Z.of_nat x - Z.of_nat (u / 2) + Z.of_nat i) n ltac:(lia)) as [-> ?].
      rewrite (mat_at_ok n n m img) by auto. reflexivity.
  - intros t Ht. destruct (mat_assign_spec n n m t img _ Hm Ht) as [E _]. rewrite E. apply returns_ok. exists g. split; [exact Ht|exact CELL].
Qed.
Print Assumptions C145_float_convolve.
(** The 1 x 2 matrix (1 2): its cells are multiples of 2^0 and small. *)
Example C145_hypotheses_met :
  repM 1 2 [f32_one; f32_two] (fun i j => nth (j * 1 + i) [f32_one; f32_two] f32_zero) /\
  fin f32_one /\ fin f32_two /\ val f32_one = IZR 1 * bpow radix2 0 /\ val f32_two = IZR 2 * bpow radix2 0 /\
  Rabs (val f32_two) <= 2 ^ 50 /\ / 2 ^ 50 <= sqrt (rsumM 1 2 (fun i j => val (nth (j * 1 + i) [f32_one; f32_two] f32_zero) * val (nth (j * 1 + i) [f32_one; f32_two] f32_zero))) /\
  matf_sum_elements 1 2 [f32_one; f32_two] = Ok (b64_plus mode_NE (b64_plus mode_NE f64_zero (f64_of_f32 f32_one)) (f64_of_f32 f32_two)).
Proof.
  split; [apply (repM_nth 1 2 [f32_one; f32_two] f32_zero); reflexivity|]. split; [reflexivity|]. split; [reflexivity|].
  rewrite val_one, val_two. cbn [bpow]. split; [lra|]. split; [lra|]. split; [rewrite Rabs_pos_eq; cbn; lra|]. split; [|reflexivity].
  cbn [rsumM rsum nth Nat.mul Nat.add]. unfold rsumM. cbn [rsum nth Nat.mul Nat.add]. rewrite val_one, val_two.
  apply Rle_trans with (sqrt 1); [rewrite sqrt_1; cbn; lra|apply sqrt_le_1_alt; lra].
Qed.
