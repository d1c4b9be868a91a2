(** Properties C26, C27 (quantization), C32 (DCT matrix), C79 (p-norm). *)
From Verif Require Export MNum LMatrixR PMatrix4 Spec6 PAabb PFrustum.
Local Open Scope R_scope.

(** ** Rounding *)
Lemma floor_bounds x : IZR (Int_part x) <= x < IZR (Int_part x) + 1.
Proof. pose proof (base_Int_part x). lra. Qed.
Lemma Int_part_unique x z : IZR z <= x < IZR z + 1 -> Int_part x = z.
Proof.
  intros H. pose proof (floor_bounds x). assert (IZR (Int_part x) < IZR (z + 1)) by (rewrite plus_IZR; lra).
  assert (IZR z < IZR (Int_part x + 1)) by (rewrite plus_IZR; lra). apply lt_IZR in H1, H2. lia.
Qed.
Lemma rtrunc_pos x : 0 <= x -> IZR (rtrunc x) <= x < IZR (rtrunc x) + 1.
Proof. intros H. unfold rtrunc. rewrite Rltb_false by lra. apply floor_bounds. Qed.
Lemma rtrunc_neg x : x < 0 -> x <= IZR (rtrunc x) < x + 1.
Proof. intros H. unfold rtrunc. rewrite Rltb_true by lra. rewrite opp_IZR. pose proof (floor_bounds (- x)). lra. Qed.
Lemma rtrunc_nonneg x : 0 <= x -> (0 <= rtrunc x)%Z.
Proof. intros H. pose proof (rtrunc_pos x H). assert (-1 < IZR (rtrunc x)) by lra. apply lt_IZR in H1. lia. Qed.
Lemma rtrunc_nonpos x : x < 0 -> (rtrunc x <= 0)%Z.
Proof. intros H. pose proof (rtrunc_neg x H). assert (IZR (rtrunc x) < 1) by lra. apply lt_IZR in H1. lia. Qed.
Lemma long_of_ok x : - IZR (2 ^ 63) <= x < IZR (2 ^ 63) -> long_of x = Ok (rtrunc x).
Proof.
  intros [H1 H2]. unfold long_of, long_op.
  assert (A : (imin tlong <= rtrunc x <= imax tlong)%Z).
  { change (imin tlong) with (- 2 ^ 63)%Z. change (imax tlong) with (2 ^ 63 - 1)%Z.
    destruct (Rlt_le_dec x 0) as [L|L].
    - pose proof (rtrunc_neg x L). pose proof (rtrunc_nonpos x L). split; [|assert ((2 ^ 63 > 1)%Z) by reflexivity; lia].
      apply le_IZR. rewrite opp_IZR. lra.
    - pose proof (rtrunc_pos x L). pose proof (rtrunc_nonneg x L). split; [assert ((2 ^ 63 > 1)%Z) by reflexivity; lia|].
      assert (rtrunc x < 2 ^ 63)%Z by (apply lt_IZR; lra). lia. }
  rewrite (proj2 (Z.leb_le _ _) (proj1 A)), (proj2 (Z.leb_le _ _) (proj2 A)). reflexivity.
Qed.
Lemma long_op_ok z : (- 2 ^ 63 <= z <= 2 ^ 63 - 1)%Z -> long_op z = Ok z.
Proof.
  intros [H1 H2]. unfold long_op. change (imin tlong) with (- 2 ^ 63)%Z. change (imax tlong) with (2 ^ 63 - 1)%Z.
  rewrite (proj2 (Z.leb_le _ _) H1), (proj2 (Z.leb_le _ _) H2). reflexivity.
Qed.
Lemma iconv_in t z : (0 < ibits t)%Z -> (imin t <= z <= imax t)%Z -> iconv t z = z.
Proof.
  intros Hb [H1 H2]. unfold iconv. rewrite Z.mod_small; [lia|]. split; [lia|].
  assert (imax t - imin t + 1 = 2 ^ ibits t)%Z; [|lia].
  unfold imax, imin. destruct (isigned t); [|lia].
  replace (2 ^ ibits t)%Z with (2 * 2 ^ (ibits t - 1))%Z; [lia|]. rewrite <- Z.pow_succ_r by lia. f_equal. lia.
Qed.
Lemma pow2_le b : (b <= 63)%Z -> (2 ^ b <= 2 ^ 63)%Z.
Proof. intros H. apply Z.pow_le_mono_r; lia. Qed.
Lemma pow2_ge b : (1 <= b)%Z -> (2 <= 2 ^ b)%Z.
Proof. intros H. change 2%Z with (2 ^ 1)%Z at 1. apply Z.pow_le_mono_r; lia. Qed.
Lemma pow2_pos b : (0 < 2 ^ b \/ b < 0)%Z.
Proof. destruct (Z.lt_ge_cases b 0); [auto|left; apply Z.pow_pos_nonneg; lia]. Qed.

Lemma Rmult_nonpos x y : x <= 0 -> 0 <= y -> x * y <= 0.
Proof. intros. nra. Qed.

(** The largest value of the type, as a number. *)
Lemma range_unsigned b : (1 <= b <= 63)%Z -> int_range {| ibits := b; isigned := false |} = Ok (2 ^ b - 1)%Z.
Proof.
  intros Hb. unfold int_range. pose proof (pow2_le b ltac:(lia)). pose proof (pow2_ge b ltac:(lia)).
  assert (K : (2 ^ 63 > 0)%Z) by reflexivity.
  cbn [imax imin isigned ibits]. rewrite !iconv_in; try reflexivity.
  - rewrite long_op_ok; [f_equal; lia|lia].
  - change (imin tlong) with (- 2 ^ 63)%Z. change (imax tlong) with (2 ^ 63 - 1)%Z. lia.
  - change (imin tlong) with (- 2 ^ 63)%Z. change (imax tlong) with (2 ^ 63 - 1)%Z. lia.
Qed.

Section Q.
Context {cfg : Cfg} {lim : RLim}.
Local Notation U b := {| ibits := b; isigned := false |}.

Lemma quantize_cell_unsigned b x mn mx : (1 <= b <= 63)%Z -> mn < mx ->
  let s := (x - mn) * IZR (2 ^ b - 1) / (mx - mn) in
  - IZR (2 ^ 63) <= s + / 2 < IZR (2 ^ 63) ->
  quantize_cell (U b) (2 ^ b - 1) x mn mx = Ok (Z.min (Z.max 0 (rtrunc (s + / 2))) (2 ^ b - 1)).
Proof.
  intros Hb Hm s Hs. unfold quantize_cell. cbn [isigned]. rewrite sdiv_R by lra. cbn [bind]. fold s. rewrite long_of_ok by exact Hs. cbn [bind].
  pose proof (pow2_le b ltac:(lia)). pose proof (pow2_ge b ltac:(lia)). assert (K : (2 ^ 63 > 0)%Z) by reflexivity.
  f_equal. cbn [imax imin isigned ibits]. rewrite !(iconv_in tlong) by (try reflexivity; change (imin tlong) with (- 2 ^ 63)%Z; change (imax tlong) with (2 ^ 63 - 1)%Z; lia).
  apply iconv_in; [cbn; lia|]. cbn [imin imax isigned ibits]. lia.
Qed.
Lemma dequantize_cell_unsigned b q mn mx : (1 <= b <= 63)%Z -> mn < mx -> (0 <= q <= 2 ^ b - 1)%Z ->
  dequantize_cell (U b) (2 ^ b - 1) q mn mx = Ok (IZR q / IZR (2 ^ b - 1) * (mx - mn) + mn).
Proof.
  intros Hb Hm Hq. unfold dequantize_cell. pose proof (pow2_ge b ltac:(lia)).
  assert (P : 0 < IZR (2 ^ b - 1)) by (apply (IZR_lt 0); lia).
  rewrite sdiv_R by lra. cbn [bind isigned]. f_equal.
  assert (D : 0 <= IZR q / IZR (2 ^ b - 1) <= 1).
  { split; [apply Rmult_le_pos; [apply (IZR_le 0); lia|left; apply Rinv_0_lt_compat, P]|].
    apply (Rmult_le_reg_r (IZR (2 ^ b - 1))); [exact P|]. unfold Rdiv. rewrite Rmult_assoc, Rinv_l, Rmult_1_r, Rmult_1_l by lra. apply IZR_le. lia. }
  set (d := IZR q / IZR (2 ^ b - 1)) in *. cbn [sltb RScalar].
  destruct (Rltb_spec mn (d * (mx - mn) + mn)).
  - rewrite Rltb_false; [reflexivity|nra].
  - rewrite Rltb_false by lra. nra.
Qed.
Lemma deq_half_step b x mn mx : (1 <= b <= 63)%Z -> mn < mx -> mn <= x <= mx ->
  let s := (x - mn) * IZR (2 ^ b - 1) / (mx - mn) in
  let q := Z.min (Z.max 0 (rtrunc (s + / 2))) (2 ^ b - 1) in
  (0 <= q <= 2 ^ b - 1)%Z /\ - IZR (2 ^ 63) <= s + / 2 < IZR (2 ^ 63) /\
  Rabs (IZR q / IZR (2 ^ b - 1) * (mx - mn) + mn - x) <= (mx - mn) / (2 * IZR (2 ^ b - 1)).
Proof.
  intros Hb Hm Hx s q. pose proof (pow2_ge b ltac:(lia)). pose proof (pow2_le b ltac:(lia)).
  set (r := (2 ^ b - 1)%Z) in *. assert (P : 0 < IZR r) by (apply (IZR_lt 0); lia).
  assert (Ss : s = (x - mn) / (mx - mn) * IZR r) by (unfold s; field; lra).
  assert (D : 0 <= (x - mn) / (mx - mn) <= 1).
  { split; [apply Rmult_le_pos; [lra|left; apply Rinv_0_lt_compat; lra]|].
    apply (Rmult_le_reg_r (mx - mn)); [lra|]. unfold Rdiv. rewrite Rmult_assoc, Rinv_l, Rmult_1_r, Rmult_1_l by lra. lra. }
  assert (S01 : 0 <= s <= IZR r) by (rewrite Ss; split; nra).
  assert (R63 : IZR r <= IZR (2 ^ 63) - 1) by (rewrite <- minus_IZR; apply IZR_le; unfold r; lia).
  pose proof (rtrunc_pos (s + / 2) ltac:(lra)) as T. pose proof (rtrunc_nonneg (s + / 2) ltac:(lra)) as T0.
  assert (T1 : (rtrunc (s + / 2) <= r)%Z).
  { assert (IZR (rtrunc (s + / 2)) < IZR (r + 1)) by (rewrite plus_IZR; lra). apply lt_IZR in H1. lia. }
  assert (Eq : q = rtrunc (s + / 2)) by (unfold q; lia).
  split; [lia|]. split; [lra|]. rewrite Eq. set (k := rtrunc (s + / 2)) in *.
  replace (IZR k / IZR r * (mx - mn) + mn - x) with ((IZR k - s) * ((mx - mn) / IZR r)) by (unfold s; field; lra).
  replace ((mx - mn) / (2 * IZR r)) with (/ 2 * ((mx - mn) / IZR r)) by (field; lra).
  rewrite Rabs_mult. assert (W : 0 < (mx - mn) / IZR r) by (apply Rdiv_lt_0_compat; lra).
  rewrite (Rabs_pos_eq _ (Rlt_le _ _ W)). apply Rmult_le_compat_r; [lra|]. apply Rabs_le. lra.
Qed.

(** C26: write, read back: every cell of [mn, mx] survives with an error of at
    most half a step (mx - mn) / (2^b - 1), for unsigned targets of up to 63
    bits. *)
Theorem C26_unsigned_roundtrip (b : Z) (M N : nat) (m out : list R) (quant : list Z) (f : nat -> nat -> R) (mn mx : R) :
  (1 <= b <= 63)%Z -> repM M N m f -> length quant = (M * N)%nat -> length out = (M * N)%nat -> mn < mx ->
  (forall i j, (i < M)%nat -> (j < N)%nat -> mn <= f i j <= mx) ->
  exists quant' out' (g : nat -> nat -> Z) (h : nat -> nat -> R),
  mat_quantize_to (U b) M N m quant mn mx = Ok quant' /\ repM M N quant' g /\
  mat_dequantize (U b) M N quant' out mn mx = Ok out' /\ repM M N out' h /\
  forall i j, (i < M)%nat -> (j < N)%nat ->
    (0 <= g i j <= 2 ^ b - 1)%Z /\ Rabs (h i j - f i j) <= (mx - mn) / (2 * IZR (2 ^ b - 1)).
Proof.
  intros Hb Hm Lq Lo Hlt Hin.
  set (s := fun i j => (f i j - mn) * IZR (2 ^ b - 1) / (mx - mn)).
  set (g := fun i j => Z.min (Z.max 0 (rtrunc (s i j + / 2))) (2 ^ b - 1)).
  set (h := fun i j => IZR (g i j) / IZR (2 ^ b - 1) * (mx - mn) + mn).
  pose proof (fun i j Hi Hj => deq_half_step b (f i j) mn mx Hb Hlt (Hin i j Hi Hj)) as C.
  cbv zeta in C. pose proof (repM_nth M N quant 0%Z Lq) as Hg0. destruct (mat_rep M N out Lo) as (h0 & Hh0).
  assert (HQ : returns (mat_quantize_to (U b) M N m quant mn mx) (fun q => repM M N q g)).
  { unfold mat_quantize_to. rewrite range_unsigned by exact Hb. cbn [bind].
    apply (iter_fill M N quant (fun i j => nth (j * M + i) quant 0%Z) g); [exact Hg0|]. intros r c q' Hr Hc Lq' _.
    unfold rd. rewrite (proj2 Hm r c Hr Hc). cbn [bind]. rewrite quantize_cell_unsigned; [reflexivity|exact Hb|exact Hlt|apply C; assumption]. }
  destruct HQ as (quant' & EQ & HQ).
  assert (HO : returns (mat_dequantize (U b) M N quant' out mn mx) (fun o => repM M N o h)).
  { unfold mat_dequantize. rewrite range_unsigned by exact Hb. cbn [bind].
    apply (iter_fill M N out h0 h); [exact Hh0|]. intros r c o' Hr Hc Lo' _.
    unfold rd. rewrite (proj2 HQ r c Hr Hc). cbn [bind]. rewrite dequantize_cell_unsigned; [reflexivity|exact Hb|exact Hlt|apply C; assumption]. }
  destruct HO as (out' & EO & HO).
  exists quant', out', g, h. split; [exact EQ|]. split; [exact HQ|]. split; [exact EO|]. split; [exact HO|].
  intros i j Hi Hj. split; [apply C; assumption|]. apply (C i j Hi Hj).
Qed.

(** C26: cells outside [mn, mx] go to the nearer end of the target's range, as
    long as the scaled value fits a long. *)
Theorem C26_outside_clamped (b : Z) (M N : nat) (m : list R) (quant : list Z) (f : nat -> nat -> R) (mn mx : R) :
  (1 <= b <= 63)%Z -> repM M N m f -> length quant = (M * N)%nat -> mn < mx ->
  (forall i j, (i < M)%nat -> (j < N)%nat -> Rabs ((f i j - mn) * IZR (2 ^ b - 1) / (mx - mn)) <= IZR (2 ^ 63) - 1) ->
  exists quant' (g : nat -> nat -> Z), mat_quantize_to (U b) M N m quant mn mx = Ok quant' /\ repM M N quant' g /\
  forall i j, (i < M)%nat -> (j < N)%nat ->
    (0 <= g i j <= 2 ^ b - 1)%Z /\ (f i j <= mn -> g i j = 0%Z) /\ (mx <= f i j -> g i j = (2 ^ b - 1)%Z).
Proof.
  intros Hb Hm Lq Hlt Hin.
  set (s := fun i j => (f i j - mn) * IZR (2 ^ b - 1) / (mx - mn)).
  set (g := fun i j => Z.min (Z.max 0 (rtrunc (s i j + / 2))) (2 ^ b - 1)).
  pose proof (repM_nth M N quant 0%Z Lq) as Hg0.
  assert (HQ : returns (mat_quantize_to (U b) M N m quant mn mx) (fun q => repM M N q g)).
  { unfold mat_quantize_to. rewrite range_unsigned by exact Hb. cbn [bind].
    apply (iter_fill M N quant (fun i j => nth (j * M + i) quant 0%Z) g); [exact Hg0|]. intros r c q' Hr Hc Lq' _.
    unfold rd. rewrite (proj2 Hm r c Hr Hc). cbn [bind]. rewrite quantize_cell_unsigned; [reflexivity|exact Hb|exact Hlt|].
    specialize (Hin r c Hr Hc). apply Rabs_le_both in Hin. lra. }
  destruct HQ as (quant' & EQ & HQ). exists quant', g. split; [exact EQ|]. split; [exact HQ|].
  intros i j Hi Hj. pose proof (pow2_ge b ltac:(lia)). set (r := (2 ^ b - 1)%Z) in *. assert (P : 0 < IZR r) by (apply (IZR_lt 0); lia).
  assert (Ss : s i j = (f i j - mn) / (mx - mn) * IZR r) by (unfold s; fold r; field; lra).
  split; [unfold g; fold r; lia|]. split.
  - intros L. assert (s i j <= 0).
    { rewrite Ss. apply Rmult_nonpos; [|lra]. apply Rmult_nonpos; [lra|left; apply Rinv_0_lt_compat; lra]. }
    assert (rtrunc (s i j + / 2) <= 0)%Z; [|unfold g; fold r; lia].
    destruct (Rlt_le_dec (s i j + / 2) 0) as [K|K]; [apply rtrunc_nonpos, K|].
    pose proof (rtrunc_pos _ K). assert (IZR (rtrunc (s i j + / 2)) < 1) by lra. apply lt_IZR in H2. lia.
  - intros L. assert (IZR r <= s i j).
    { rewrite Ss. rewrite <- (Rmult_1_l (IZR r)) at 1. apply Rmult_le_compat_r; [lra|].
      apply (Rmult_le_reg_r (mx - mn)); [lra|]. unfold Rdiv. rewrite Rmult_assoc, Rinv_l by lra. lra. }
    assert (r <= rtrunc (s i j + / 2))%Z; [|unfold g; fold r; lia].
    pose proof (rtrunc_pos (s i j + / 2) ltac:(lra)). assert (IZR r < IZR (rtrunc (s i j + / 2) + 1)) by (rewrite plus_IZR; lra). apply lt_IZR in H2. lia.
Qed.

(** C26: quantize() reports a range that contains every cell, and quantizes to
    it; a constant matrix of non-negative cells gives an empty range and
    divides by zero. *)
Theorem C26_quantize_range (b : Z) (M N : nat) (m : list R) (quant : list Z) (f : nat -> nat -> R) :
  (1 <= b <= 63)%Z -> (0 < M)%nat -> (0 < N)%nat -> repM M N m f -> length quant = (M * N)%nat ->
  (forall i j, (i < M)%nat -> (j < N)%nat -> f i j <= rmax) ->
  exists mn mx, (forall i j, (i < M)%nat -> (j < N)%nat -> mn <= f i j <= mx) /\
  ((mn < mx /\ exists quant', mat_quantize (U b) M N m quant = Ok (quant', mn, mx) /\ mat_quantize_to (U b) M N m quant mn mx = Ok quant' /\ length quant' = (M * N)%nat) \/
   (mn = mx /\ mat_quantize (U b) M N m quant = NonFin)).
Proof.
  intros Hb HM HN Hm Lq Hmax.
  destruct (C24_get_min cfg lim M N m f Hm HM HN Hmax) as (mn & E1 & _ & H1).
  assert (G : exists mx, mat_get_max M N m = Ok mx /\ forall i j, (i < M)%nat -> (j < N)%nat -> f i j <= mx).
  { pose proof (repM_repV_cell M N m f Hm) as Hv.
    destruct (fold_best (fun x y => y <= x) (M * N) (fun k => f (k mod M) (k / M))%nat (fun i mx => a <- rd m i ;; Ok (if sltb mx a then a else mx)) 0) as (mx & E & H2 & H3 & _).
    - intros; lra.
    - intros; lra.
    - intros i x Hi. rewrite (repV_rd _ _ _ _ Hv Hi). cbn [bind]. eexists. split; [reflexivity|]. cbn -[Nat.div Nat.modulo].
      destruct (Rltb_spec x (f (i mod M) (i / M))%nat); repeat split; auto; lra.
    - exists mx. split; [exact E|]. intros i j Hi Hj. specialize (H3 (j * M + i)%nat (cell_lt M N i j Hi Hj)). cbv beta in H3.
      rewrite cell_mod, cell_div in H3 by exact Hi. exact H3. }
  destruct G as (mx & E2 & H2). exists mn, mx. split; [intros i j Hi Hj; split; [apply H1|apply H2]; assumption|].
  pose proof (H1 0%nat 0%nat HM HN) as A1. pose proof (H2 0%nat 0%nat HM HN) as A2.
  unfold mat_quantize. rewrite E1. cbn [bind]. rewrite E2. cbn [bind].
  destruct (Rle_lt_or_eq_dec mn mx ltac:(lra)) as [L|L]; [left|right]; (split; [exact L|]).
  - destruct (C26_unsigned_roundtrip b M N m (repeat 0 (M * N)) quant f mn mx Hb Hm Lq (repeat_length _ _) L) as (quant' & _ & g & _ & EQ & HQ & _).
    { intros i j Hi Hj; split; [apply H1|apply H2]; assumption. }
    exists quant'. rewrite EQ. split; [reflexivity|]. split; [reflexivity|apply HQ].
  - unfold mat_quantize_to. rewrite range_unsigned by exact Hb. cbn [bind].
    rewrite for_step by nia. unfold rd. rewrite (proj2 Hm 0%nat 0%nat HM HN : nth_error m 0 = _). cbn [bind].
    unfold quantize_cell. cbn [isigned]. replace (mx - mn) with 0 by lra. rewrite sdiv_zero. reflexivity.
Qed.

(** C100: 64-bit unsigned targets: long( max ) is -1, every cell is quantized to
    the largest value and every cell is dequantized to mn. *)
Theorem C100_width64_refuted (x mn mx : R) : mn < mx -> mn <= x <= mx ->
  int_range (U 64) = Ok (-1)%Z /\
  mat_quantize_to (U 64) 1 1 [x] [0%Z] mn mx = Ok [(2 ^ 64 - 1)%Z] /\
  mat_dequantize (U 64) 1 1 [(2 ^ 64 - 1)%Z] [0] mn mx = Ok [mn].
Proof.
  intros Hlt Hx. assert (E0 : int_range (U 64) = Ok (-1)%Z) by reflexivity. split; [exact E0|].
  unfold mat_quantize_to, mat_dequantize. rewrite E0. cbn [bind Nat.mul Nat.add]. unfold for_. cbn [Nat.sub for_n rd nth_error bind]. split.
  - unfold quantize_cell. cbn [isigned]. rewrite sdiv_R by lra. cbn [bind].
    set (s := (x - mn) * IZR (-1) / (mx - mn)).
    assert (S : -1 <= s <= 0).
    { replace s with (- ((x - mn) / (mx - mn))) by (unfold s; field; lra).
      assert (0 <= (x - mn) / (mx - mn) <= 1); [|lra]. split; [apply Rmult_le_pos; [lra|left; apply Rinv_0_lt_compat; lra]|].
      apply (Rmult_le_reg_r (mx - mn)); [lra|]. unfold Rdiv. rewrite Rmult_assoc, Rinv_l by lra. lra. }
    assert (B : 1 < IZR (2 ^ 63)) by (apply (IZR_lt 1); reflexivity).
    rewrite long_of_ok by lra. cbn [bind].
    replace (iconv _ _) with (2 ^ 64 - 1)%Z; [reflexivity|].
    change (iconv tlong (imin (U 64))) with 0%Z. change (iconv tlong (imax (U 64))) with (-1)%Z.
    rewrite (Z.min_r _ (-1)) by lia. reflexivity.
  - unfold dequantize_cell. cbn [isigned]. rewrite sdiv_R by lra. cbn [bind].
    assert (B : 1 < IZR (2 ^ 64 - 1)) by (apply (IZR_lt 1); reflexivity).
    set (d := IZR (2 ^ 64 - 1) / -1) in *. assert (D : d < -1) by (unfold d; lra).
    cbn [sltb RScalar]. rewrite (Rltb_false mn) by nra. rewrite Rltb_false by lra. reflexivity.
Qed.
Lemma for_ub {S : Type} (Inv : S -> Prop) n (body : nat -> S -> res S) k s : (k < n)%nat -> Inv s ->
  (forall i x, (i < n)%nat -> Inv x -> body i x = UB \/ returns (body i x) Inv) ->
  (forall x, Inv x -> body k x = UB) -> for_ 0 n body s = UB.
Proof.
  intros Hk H0 Hb Hu. assert (G : forall m, (m <= n)%nat -> for_ 0 m body s = UB \/ ((m <= k)%nat /\ returns (for_ 0 m body s) Inv)).
  { induction m as [|m IH]; intros Hm; [right; split; [lia|]; exists s; split; [reflexivity|exact H0]|].
    rewrite for_last by lia. destruct (IH ltac:(lia)) as [E|(L & x & E & Hx)]; rewrite E; cbn [bind]; [left; reflexivity|].
    destruct (Nat.eq_dec m k) as [->|Ne]; [left; apply Hu, Hx|].
    destruct (Hb m x ltac:(lia) Hx) as [E2|H2]; [left; exact E2|right]. split; [lia|exact H2]. }
  destruct (G n (le_n n)) as [E|(L & _)]; [exact E|lia].
Qed.
Lemma long_of_big x : IZR (2 ^ 63) <= x \/ x <= - IZR (2 ^ 63) - 1 -> long_of x = UB.
Proof.
  assert (P : 0 < IZR (2 ^ 63)) by (apply (IZR_lt 0); reflexivity).
  intros H. unfold long_of, long_op. change (imin tlong) with (- 2 ^ 63)%Z. change (imax tlong) with (2 ^ 63 - 1)%Z.
  destruct H as [H|H].
  - pose proof (rtrunc_pos x ltac:(lra)) as T. assert (L : IZR (2 ^ 63) < IZR (rtrunc x + 1)) by (rewrite plus_IZR; lra). apply lt_IZR in L.
    rewrite (proj2 (Z.leb_gt (rtrunc x) (2 ^ 63 - 1))) by lia. rewrite andb_false_r. reflexivity.
  - pose proof (rtrunc_neg x ltac:(lra)) as T. assert (L : IZR (rtrunc x) < IZR (- 2 ^ 63)) by (rewrite opp_IZR; lra). apply lt_IZR in L.
    rewrite (proj2 (Z.leb_gt (- 2 ^ 63) (rtrunc x))) by lia. reflexivity.
Qed.
(** C100: one cell so far outside the range that the scaled value does not fit a
    long makes the whole call undefined, in every matrix and for every range. *)
Theorem C100_far_outside_refuted (b : Z) (M N : nat) (m : list R) (quant : list Z) (f : nat -> nat -> R) (mn mx : R) (r c : nat) :
  (1 <= b <= 63)%Z -> repM M N m f -> length quant = (M * N)%nat -> mn < mx -> (r < M)%nat -> (c < N)%nat ->
  (let s := (f r c - mn) * IZR (2 ^ b - 1) / (mx - mn) in IZR (2 ^ 63) <= s \/ s <= - IZR (2 ^ 63) - 2) ->
  mat_quantize_to (U b) M N m quant mn mx = UB.
Proof.
  intros Hb Hm Lq Hlt Hr Hc Hs. unfold mat_quantize_to. rewrite range_unsigned by exact Hb. cbn [bind].
  pose proof (repM_repV_cell M N m f Hm) as Hv.
  apply (for_ub (fun q => length q = (M * N)%nat) _ _ (c * M + r)%nat); [apply cell_lt; assumption|exact Lq| |].
  - intros i q Hi Lq'. rewrite (repV_rd _ _ _ _ Hv Hi). cbn [bind]. unfold quantize_cell. cbn [isigned]. rewrite sdiv_R by lra. cbn [bind].
    unfold long_of, long_op. destruct (_ && _)%bool; cbn [bind]; [right|left; reflexivity].
    rewrite wr_ok by lia. eexists. split; [reflexivity|]. rewrite length_upd. exact Lq'.
  - intros q Lq'. unfold rd. rewrite (proj2 Hm r c Hr Hc). cbn [bind]. unfold quantize_cell. cbn [isigned]. rewrite sdiv_R by lra. cbn [bind].
    rewrite long_of_big; [reflexivity|]. cbv zeta in Hs. lra.
Qed.
Example C100_hypotheses_met : repM 1 1 [IZR (2 ^ 63)] (fun _ _ => IZR (2 ^ 63)) /\
  IZR (2 ^ 63) <= (IZR (2 ^ 63) - 0) * IZR (2 ^ 8 - 1) / (1 - 0).
Proof.
  split; [split; [reflexivity|]; intros [|] [|] ? ?; try lia; reflexivity|].
  change (2 ^ 8 - 1)%Z with 255%Z. assert (0 < IZR (2 ^ 63)) by (apply (IZR_lt 0); reflexivity). lra.
Qed.

(** ** Signed targets *)
Local Notation I b := {| ibits := b; isigned := true |}.
Lemma range_signed b : (1 <= b <= 63)%Z -> int_range (I b) = Ok (2 ^ b - 1)%Z.
Proof.
  intros Hb. unfold int_range. pose proof (pow2_le b ltac:(lia)). pose proof (pow2_ge b ltac:(lia)).
  assert (K : (2 ^ 63 > 0)%Z) by reflexivity. assert (E : (2 ^ b = 2 * 2 ^ (b - 1))%Z) by (rewrite <- Z.pow_succ_r by lia; f_equal; lia).
  cbn [imax imin isigned ibits]. rewrite !iconv_in; try reflexivity.
  - rewrite long_op_ok; [f_equal; lia|lia].
  - change (imin tlong) with (- 2 ^ 63)%Z. change (imax tlong) with (2 ^ 63 - 1)%Z. lia.
  - change (imin tlong) with (- 2 ^ 63)%Z. change (imax tlong) with (2 ^ 63 - 1)%Z. lia.
Qed.
Lemma quantize_cell_signed b x mn mx : (1 <= b <= 63)%Z -> mn < mx ->
  let s := x * IZR (2 ^ b - 1) / (mx - mn) in
  - IZR (2 ^ 63) <= s + / 2 < IZR (2 ^ 63) ->
  quantize_cell (I b) (2 ^ b - 1) x mn mx = Ok (Z.min (Z.max (- 2 ^ (b - 1)) (rtrunc (s + / 2))) (2 ^ (b - 1) - 1)).
Proof.
  intros Hb Hm s Hs. unfold quantize_cell. cbn [isigned]. rewrite sdiv_R by lra. cbn [bind]. fold s. rewrite long_of_ok by exact Hs. cbn [bind].
  pose proof (pow2_le b ltac:(lia)). pose proof (pow2_ge b ltac:(lia)). assert (K : (2 ^ 63 > 0)%Z) by reflexivity.
  assert (E : (2 ^ b = 2 * 2 ^ (b - 1))%Z) by (rewrite <- Z.pow_succ_r by lia; f_equal; lia).
  f_equal. cbn [imax imin isigned ibits]. rewrite !(iconv_in tlong) by (try reflexivity; change (imin tlong) with (- 2 ^ 63)%Z; change (imax tlong) with (2 ^ 63 - 1)%Z; lia).
  apply iconv_in; [cbn; lia|]. cbn [imin imax isigned ibits]. lia.
Qed.
Definition clampR (mn mx y : R) : R := if Rltb mx (if Rltb mn y then y else mn) then mx else if Rltb mn y then y else mn.
Lemma clampR_near mn mx y x : mn <= x <= mx -> Rabs (clampR mn mx y - x) <= Rabs (y - x).
Proof.
  intros H. unfold clampR. destruct (Rltb_spec mn y).
  - destruct (Rltb_spec mx y); [|lra]. rewrite (Rabs_pos_eq (mx - x)), (Rabs_pos_eq (y - x)) by lra. lra.
  - rewrite Rltb_false by lra. rewrite (Rabs_left1 (mn - x)), (Rabs_left1 (y - x)) by lra. lra.
Qed.

(** C27: what does hold for signed targets: cells of [mn, mx] whose magnitude is
    at most half the range come back within one and a half steps, and within
    half a step if they are not negative. *)
Theorem C27_signed_roundtrip_partial (b : Z) (M N : nat) (m out : list R) (quant : list Z) (f : nat -> nat -> R) (mn mx : R) :
  (1 <= b <= 63)%Z -> repM M N m f -> length quant = (M * N)%nat -> length out = (M * N)%nat -> mn < mx ->
  (forall i j, (i < M)%nat -> (j < N)%nat -> mn <= f i j <= mx /\ Rabs (f i j) <= (mx - mn) / 2) ->
  let step := (mx - mn) / IZR (2 ^ b - 1) in
  exists quant' out' (g : nat -> nat -> Z) (h : nat -> nat -> R),
  mat_quantize_to (I b) M N m quant mn mx = Ok quant' /\ repM M N quant' g /\
  mat_dequantize (I b) M N quant' out mn mx = Ok out' /\ repM M N out' h /\
  forall i j, (i < M)%nat -> (j < N)%nat ->
    (- 2 ^ (b - 1) <= g i j <= 2 ^ (b - 1) - 1)%Z /\ Rabs (h i j - f i j) <= 3 / 2 * step /\ (0 <= f i j -> Rabs (h i j - f i j) <= step / 2).
Proof.
  intros Hb Hm Lq Lo Hlt Hin step.
  pose proof (pow2_ge b ltac:(lia)) as B2. pose proof (pow2_le b ltac:(lia)) as B63.
  assert (EB : (2 ^ b = 2 * 2 ^ (b - 1))%Z) by (rewrite <- Z.pow_succ_r by lia; f_equal; lia).
  set (r := (2 ^ b - 1)%Z) in *. set (hi := (2 ^ (b - 1))%Z) in *.
  assert (P : 0 < IZR r) by (apply (IZR_lt 0); lia).
  assert (RH : IZR r = 2 * IZR hi - 1) by (rewrite <- mult_IZR, <- minus_IZR; f_equal; lia).
  assert (H63 : 2 * IZR hi <= IZR (2 ^ 63)) by (rewrite <- mult_IZR; apply IZR_le; lia).
  set (s := fun i j => f i j * IZR r / (mx - mn)).
  set (g := fun i j => Z.min (Z.max (- hi) (rtrunc (s i j + / 2))) (hi - 1)).
  set (h := fun i j => clampR mn mx (IZR (g i j) / IZR r * (mx - mn))).
  assert (SB : forall i j, (i < M)%nat -> (j < N)%nat -> Rabs (s i j) <= IZR hi - / 2).
  { intros i j Hi Hj. destruct (Hin i j Hi Hj) as [_ A]. replace (s i j) with (f i j * (IZR r / (mx - mn))) by (unfold s; field; lra).
    assert (Q : 0 < IZR r / (mx - mn)) by (apply Rdiv_lt_0_compat; lra).
    rewrite Rabs_mult, (Rabs_pos_eq _ (Rlt_le _ _ Q)).
    replace (IZR hi - / 2) with ((mx - mn) / 2 * (IZR r / (mx - mn))) by (rewrite RH; field; lra).
    apply Rmult_le_compat_r; lra. }
  assert (HQ : returns (mat_quantize_to (I b) M N m quant mn mx) (fun q => repM M N q g)).
  { unfold mat_quantize_to. rewrite range_signed by exact Hb. cbn [bind].
    apply (iter_fill M N quant (fun i j => nth (j * M + i) quant 0%Z) g); [apply repM_nth, Lq|]. intros i j q' Hr Hc Lq' _.
    unfold rd. rewrite (proj2 Hm i j Hr Hc). cbn [bind]. fold r. unfold r. rewrite quantize_cell_signed; [reflexivity|exact Hb|exact Hlt|].
    specialize (SB i j Hr Hc). unfold s in SB. fold r. apply Rabs_le_both in SB. lra. }
  destruct HQ as (quant' & EQ & HQ). destruct (mat_rep M N out Lo) as (h0 & Hh0).
  assert (HO : returns (mat_dequantize (I b) M N quant' out mn mx) (fun o => repM M N o h)).
  { unfold mat_dequantize. rewrite range_signed by exact Hb. cbn [bind].
    apply (iter_fill M N out h0 h); [exact Hh0|]. intros i j o' Hr Hc Lo' _.
    unfold rd. rewrite (proj2 HQ i j Hr Hc). cbn [bind]. unfold dequantize_cell. cbn [isigned]. fold r. rewrite sdiv_R by lra. reflexivity. }
  destruct HO as (out' & EO & HO).
  exists quant', out', g, h. split; [exact EQ|]. split; [exact HQ|]. split; [exact EO|]. split; [exact HO|].
  intros i j Hi Hj. split; [unfold g; lia|].
  destruct (Hin i j Hi Hj) as [Hx _]. pose proof (SB i j Hi Hj) as S. apply Rabs_le_both in S.
  assert (W : 0 < step) by (apply Rdiv_lt_0_compat; lra).
  assert (E : Rabs (h i j - f i j) <= Rabs (IZR (g i j) - s i j) * step).
  { eapply Rle_trans; [apply clampR_near, Hx|].
    replace (IZR (g i j) / IZR r * (mx - mn) - f i j) with ((IZR (g i j) - s i j) * step) by (unfold s, step; fold r; field; lra).
    rewrite Rabs_mult, (Rabs_pos_eq step) by lra. lra. }
  assert (HI1 : IZR (hi - 1) = IZR hi - 1) by (rewrite minus_IZR; reflexivity).
  assert (G : Rabs (IZR (g i j) - s i j) <= 3 / 2 /\ (0 <= s i j -> Rabs (IZR (g i j) - s i j) <= / 2)).
  { destruct (Rlt_le_dec (s i j + / 2) 0) as [L|L].
    - split; [|intros; lra]. pose proof (rtrunc_neg _ L) as T. pose proof (rtrunc_nonpos _ L) as T0.
      assert (g i j = rtrunc (s i j + / 2)).
      { unfold g. assert (- hi <= rtrunc (s i j + / 2))%Z; [|lia]. apply le_IZR. rewrite opp_IZR. lra. }
      rewrite H. apply Rabs_le. lra.
    - pose proof (rtrunc_pos _ L) as T. pose proof (rtrunc_nonneg _ L) as T0.
      assert (A : Rabs (IZR (g i j) - s i j) <= / 2).
      { destruct (Z.le_gt_cases (rtrunc (s i j + / 2)) (hi - 1)) as [K|K].
        - assert (g i j = rtrunc (s i j + / 2)) as -> by (unfold g; lia). apply Rabs_le. lra.
        - assert (g i j = hi - 1)%Z as -> by (unfold g; lia). assert (IZR hi <= IZR (rtrunc (s i j + / 2))) by (apply IZR_le; lia).
          rewrite HI1. apply Rabs_le. lra. }
      split; [lra|intros; exact A]. }
  destruct G as [G1 G2]. split.
  - eapply Rle_trans; [exact E|]. apply Rmult_le_compat_r; lra.
  - intros Hp. eapply Rle_trans; [exact E|]. replace (step / 2) with (/ 2 * step) by field. apply Rmult_le_compat_r; [lra|]. apply G2.
    unfold s. apply Rmult_le_pos; [apply Rmult_le_pos; lra|left; apply Rinv_0_lt_compat; lra].
Qed.
(** C27: a range that does not contain 0: the offset is never subtracted, the
    largest cell comes back as the smallest (int8_t, range [10, 20]). *)
Theorem C27_signed_offset_refuted :
  mat_quantize_to (I 8) 1 1 [20] [0%Z] 10 20 = Ok [127%Z] /\ mat_dequantize (I 8) 1 1 [127%Z] [0] 10 20 = Ok [10].
Proof.
  unfold mat_quantize_to, mat_dequantize. rewrite (range_signed 8) by lia. cbn [bind Nat.mul Nat.add]. unfold for_. cbn [Nat.sub for_n rd nth_error bind]. split.
  - assert (B : 1024 < IZR (2 ^ 63)) by (apply (IZR_lt 1024); reflexivity).
    rewrite quantize_cell_signed; [|lia|lra|].
    + cbn [bind]. change (2 ^ 8 - 1)%Z with 255%Z. replace (20 * 255 / (20 - 10) + / 2) with (510 + / 2) by field.
      unfold rtrunc. rewrite Rltb_false by lra. rewrite (Int_part_unique _ 510) by lra. reflexivity.
    + change (2 ^ 8 - 1)%Z with 255%Z. lra.
  - unfold dequantize_cell. cbn [isigned]. change (2 ^ 8 - 1)%Z with 255%Z. rewrite sdiv_R by lra. cbn [bind sltb RScalar].
    rewrite (Rltb_false 10) by lra. rewrite Rltb_false by lra. reflexivity.
Qed.
(** C27: even for a symmetric range with step 1 a negative cell can be off by
    1.4 steps, because the conversion truncates towards zero. *)
Theorem C27_signed_truncation_refuted :
  mat_quantize_to (I 8) 1 1 [- (14 / 10)] [0%Z] (- (255 / 2)) (255 / 2) = Ok [0%Z] /\
  mat_dequantize (I 8) 1 1 [0%Z] [0] (- (255 / 2)) (255 / 2) = Ok [0].
Proof.
  unfold mat_quantize_to, mat_dequantize. rewrite (range_signed 8) by lia. cbn [bind Nat.mul Nat.add]. unfold for_. cbn [Nat.sub for_n rd nth_error bind]. split.
  - assert (B : 1024 < IZR (2 ^ 63)) by (apply (IZR_lt 1024); reflexivity).
    rewrite quantize_cell_signed; [|lia|lra|].
    + cbn [bind]. change (2 ^ 8 - 1)%Z with 255%Z. replace (- (14 / 10) * 255 / (255 / 2 - - (255 / 2)) + / 2) with (- (9 / 10)) by field.
      unfold rtrunc. rewrite Rltb_true by lra. rewrite (Int_part_unique _ 0) by lra. reflexivity.
    + change (2 ^ 8 - 1)%Z with 255%Z. replace (- (14 / 10) * 255 / (255 / 2 - - (255 / 2))) with (- (14 / 10)) by field. lra.
  - unfold dequantize_cell. cbn [isigned]. change (2 ^ 8 - 1)%Z with 255%Z. rewrite sdiv_R by lra. cbn [bind sltb RScalar].
    rewrite (Rltb_true _ (0 / 255 * _)) by lra. rewrite Rltb_false by lra. cbn. do 2 f_equal. field.
Qed.
(** C27: for a 64-bit signed target the width of the range overflows long. *)
Theorem C27_width64_refuted (M N : nat) (m : list R) (quant : list Z) (mn mx : R) : mat_quantize_to (I 64) M N m quant mn mx = UB.
Proof. reflexivity. Qed.

(** ** The DCT matrix *)
Lemma dct_sum n a : 2 * sin a * rsum n (fun c => cos (INR (2 * c + 1) * a)) = sin (INR (2 * n) * a).
Proof.
  induction n as [|n IH]; [cbn; rewrite Rmult_0_l, sin_0; ring|].
  cbn [rsum]. rewrite Rmult_plus_distr_l, IH.
  replace (INR (2 * n) * a) with (INR (2 * n + 1) * a - a) by (rewrite plus_INR; cbn [INR]; ring).
  replace (INR (2 * S n) * a) with (INR (2 * n + 1) * a + a) by (replace (2 * S n)%nat with (2 * n + 1 + 1)%nat by lia; rewrite (plus_INR (2 * n + 1)); cbn [INR]; ring).
  rewrite sin_minus, sin_plus. ring.
Qed.
Lemma dct_zero n k : (0 < k < 2 * n)%nat -> rsum n (fun c => cos (INR (2 * c + 1) * (INR k * PI / INR (2 * n)))) = 0.
Proof.
  intros Hk. pose proof (dct_sum n (INR k * PI / INR (2 * n))) as H.
  assert (P : 0 < INR (2 * n)) by (apply (lt_INR 0); lia). assert (K : 0 < INR k) by (apply (lt_INR 0); lia). assert (K2 : INR k < INR (2 * n)) by (apply lt_INR; lia).
  replace (INR (2 * n) * (INR k * PI / INR (2 * n))) with (INR k * PI) in H by (field; lra).
  rewrite (sin_eq_0_1 (INR k * PI)) in H by (exists (Z.of_nat k); rewrite <- INR_IZR_INZ; reflexivity).
  assert (S : 0 < sin (INR k * PI / INR (2 * n))).
  { apply sin_gt_0.
    - pose proof PI_RGT_0. apply Rdiv_lt_0_compat; [nra|lra].
    - apply (Rmult_lt_reg_r (INR (2 * n))); [lra|]. unfold Rdiv. rewrite Rmult_assoc, Rinv_l by lra. pose proof PI_RGT_0. nra. }
  nra.
Qed.
Lemma cos_prod a b : cos a * cos b = / 2 * (cos (a - b) + cos (a + b)).
Proof. rewrite cos_minus, cos_plus. field. Qed.
Definition dct_cell (n r c : nat) : R :=
  cos (INR ((2 * c + 1) * r) * PI / INR (2 * n)) * (if (r =? 0)%nat then sqrt (1 / INR n) else sqrt (2 / INR n)).
Lemma mat_set_dct_spec M N m : (0 < M)%nat -> length m = (M * N)%nat ->
  returns (mat_set_dct M N m) (fun r => repM M N r (dct_cell M)).
Proof.
  intros HM Lm. destruct (mat_rep M N m Lm) as (f & Hm). unfold mat_set_dct. cbv zeta.
  assert (P : 0 < INR M) by (apply (lt_INR 0); lia). assert (P2 : 0 < INR (2 * M)) by (apply (lt_INR 0); lia).
  eapply fill2_rc_all; [exact Hm|]. intros r c m' Hr Hc Hm'. cbv beta.
  assert (Q : 0 < 1 / INR M) by (apply Rdiv_lt_0_compat; lra). assert (Q2 : 0 < 2 / INR M) by (apply Rdiv_lt_0_compat; lra).
  destruct (r =? 0)%nat eqn:E; rewrite sdiv_R by lra; cbn [bind]; rewrite ssqrt_R by lra; cbn [bind]; rewrite sdiv_R by lra; cbn [bind scos RTrig];
    rewrite mat_put_ok by assumption; unfold dct_cell; rewrite E; reflexivity.
Qed.
(** C32: after set_dct() the rows are orthonormal, for every n >= 1. *)
Theorem C32_dct_orthonormal (n : nat) (m : list R) : (0 < n)%nat -> length m = (n * n)%nat ->
  exists m' f, mat_set_dct n n m = Ok m' /\ repM n n m' f /\
  forall r s, (r < n)%nat -> (s < n)%nat -> dotR n (fun c => f r c) (fun c => f s c) = idR r s.
Proof.
  intros Hn Lm. destruct (mat_set_dct_spec n n m Hn Lm) as (m' & E & H). exists m', (dct_cell n). split; [exact E|]. split; [exact H|].
  intros r s Hr Hs. assert (P : 0 < INR n) by (apply (lt_INR 0); lia).
  set (w := fun r => if (r =? 0)%nat then sqrt (1 / INR n) else sqrt (2 / INR n)).
  set (C := fun k c => cos (INR (2 * c + 1) * (INR k * PI / INR (2 * n)))).
  assert (P2 : INR (2 * n) <> 0) by (apply not_0_INR; lia).
  assert (G : forall r s, (s <= r)%nat -> dotR n (fun c => dct_cell n r c) (fun c => dct_cell n s c) = w r * w s * (/ 2 * (rsum n (C (r - s)%nat) + rsum n (C (r + s)%nat)))).
  { intros r' s' L. unfold dotR. rewrite <- rsum_plus, <- !rsum_scal. apply rsum_ext. intros c Hc. unfold dct_cell. fold (w r') (w s').
    transitivity (w r' * w s' * (cos (INR ((2 * c + 1) * r') * PI / INR (2 * n)) * cos (INR ((2 * c + 1) * s') * PI / INR (2 * n)))); [ring|].
    rewrite cos_prod. unfold C. do 2 f_equal. f_equal; f_equal; rewrite !mult_INR; [rewrite (minus_INR r' s' L)|rewrite (plus_INR r' s')]; field; repeat split; try (apply not_0_INR; lia); try lra. }
  assert (C0 : rsum n (C 0%nat) = INR n).
  { rewrite (rsum_ext n _ (fun _ => 1)); [rewrite rsum_const; ring|]. intros c Hc. unfold C. cbn [INR].
    replace (INR (2 * c + 1) * (0 * PI / INR (2 * n))) with 0 by (field; exact P2). apply cos_0. }
  assert (CZ : forall k, (0 < k < 2 * n)%nat -> rsum n (C k) = 0) by (intros k Hk; apply dct_zero, Hk).
  assert (D : forall r s, (r < n)%nat -> (s < r)%nat -> dotR n (fun c => dct_cell n r c) (fun c => dct_cell n s c) = 0).
  { intros r' s' H1 H2. rewrite G by lia. rewrite !CZ by lia. ring. }
  unfold idR. destruct (Nat.eqb_spec r s) as [<-|Hne].
  - rewrite G by lia. rewrite Nat.sub_diag, C0. unfold w. destruct (Nat.eqb_spec r 0) as [->|Hr0].
    + cbn [Nat.add]. rewrite C0, sqrt_sqrt by (left; apply Rdiv_lt_0_compat; lra). field. lra.
    + rewrite CZ by lia. rewrite sqrt_sqrt by (left; apply Rdiv_lt_0_compat; lra). field. lra.
  - destruct (Nat.lt_ge_cases s r) as [L|L]; [apply D; assumption|]. rewrite dotR_sym. apply D; [assumption|lia].
Qed.

(** ** p-norms *)
Lemma absp_nonneg x p : 0 <= absp x p.
Proof. unfold absp. destruct (Req_EM_T x 0); [lra|]. left. apply exp_pos. Qed.
Lemma cpow_nonneg x p : 0 <= x -> 0 < p -> cpow x p = Ok (absp x p).
Proof.
  intros H Hp. unfold cpow, absp. destruct (Rltb_spec 0 x) as [L|L].
  - destruct (Req_EM_T x 0); [lra|]. rewrite Rabs_pos_eq by lra. reflexivity.
  - rewrite Reqb_false by lra. rewrite Reqb_true by lra. rewrite Rltb_true by lra. destruct (Req_EM_T x 0); [reflexivity|lra].
Qed.
Lemma cpow_even x p k : 0 < p -> p = IZR (2 * k) -> cpow x p = Ok (absp x p).
Proof.
  intros Hp E. destruct (Rle_lt_dec 0 x) as [L|L]; [apply cpow_nonneg; assumption|].
  unfold cpow, absp. rewrite Rltb_false, (Reqb_false p 0), (Reqb_false x 0) by lra.
  assert (F : Int_part p = (2 * k)%Z) by (apply Int_part_unique; lra). rewrite F. rewrite Reqb_true by exact E.
  rewrite Z.even_mul. cbn [Z.even orb]. destruct (Req_EM_T x 0); [lra|]. rewrite Rabs_left by lra. reflexivity.
Qed.
(** C79: what holds: with cells >= 0, or with an even exponent, p_norm is the
    p-norm. *)
Theorem C79_p_norm_partial (M N : nat) (m : list R) (f : nat -> nat -> R) (p : R) : repM M N m f -> 1 <= p ->
  (forall i j, (i < M)%nat -> (j < N)%nat -> 0 <= f i j) \/ (exists k, p = IZR (2 * k)) ->
  mat_p_norm M N m p = Ok (absp (rsumM M N (fun i j => absp (f i j) p)) (1 / p)).
Proof.
  intros Hm Hp H. unfold mat_p_norm. pose proof (repM_repV_cell M N m f Hm) as Hv.
  match goal with |- context [for_ _ _ ?b 0%R] => change (for_ 0%nat (M * N) b 0) with (for_ 0%nat (M * N) b (szero : R)) end.
  rewrite (for_sum (M * N) (fun k => absp (f (k mod M) (k / M)) p)%nat).
  - rewrite ssum_R, (rsum_cells M N (fun i j => absp (f i j) p)). cbn [bind]. rewrite sdiv_R by lra. cbn [bind].
    apply cpow_nonneg; [|apply Rdiv_lt_0_compat; lra]. unfold rsumM. apply rsum_nonneg. intros i _. apply rsum_nonneg. intros j _. apply absp_nonneg.
  - intros k a Hk. rewrite (repV_rd _ _ _ _ Hv Hk). cbn [bind].
    replace (cpow (f (k mod M) (k / M))%nat p) with (Ok (absp (f (k mod M) (k / M))%nat p)); [reflexivity|].
    destruct (cell_surj M N k Hk) as (i & j & Hi & Hj & ->). rewrite cell_mod, cell_div by exact Hi.
    symmetry. destruct H as [H|(z & H)]; [apply cpow_nonneg; [apply H; assumption|lra]|apply (cpow_even _ _ z); [lra|exact H]].
Qed.
(** C79: with a negative cell and p = 1 the result is negative; with p = 3 it is
    not a number. *)
Theorem C79_p_norm_refuted : mat_p_norm 1 1 [-1] 1 = Ok (-1) /\ mat_p_norm 1 1 [-1] 3 = NonFin.
Proof.
  assert (E : forall p k, 0 < p -> p = IZR k -> Z.even k = false -> cpow (-1) p = Ok (-1)).
  { intros p k Hp -> Hk. unfold cpow. rewrite Rltb_false, (Reqb_false _ 0), (Reqb_false (-1) 0) by lra.
    rewrite (Int_part_unique (IZR k) k) by lra. rewrite Reqb_true by reflexivity. rewrite Hk.
    replace (- -1) with 1 by ring. f_equal. unfold Rpower. rewrite ln_1, Rmult_0_r, exp_0. ring. }
  unfold mat_p_norm. cbn [Nat.mul Nat.add]. unfold for_. cbn [Nat.sub for_n rd nth_error bind]. split.
  - rewrite (E 1 1%Z) by (try lra; reflexivity). cbn [bind]. rewrite sdiv_R by lra. cbn [bind].
    replace (0 + -1) with (-1) by ring. replace (1 / 1) with 1 by field. apply (E 1 1%Z); [lra|reflexivity|reflexivity].
  - rewrite (E 3 3%Z) by (try lra; reflexivity). cbn [bind]. rewrite sdiv_R by lra. cbn [bind].
    unfold cpow. rewrite Rltb_false by lra. rewrite !Reqb_false; [reflexivity| |lra|lra].
    rewrite (Int_part_unique (1 / 3) 0) by lra. lra.
Qed.
End Q.
Print Assumptions C26_unsigned_roundtrip.
Print Assumptions C26_outside_clamped.
Print Assumptions C26_quantize_range.
Print Assumptions C100_width64_refuted.
Print Assumptions C100_far_outside_refuted.
Print Assumptions C27_signed_roundtrip_partial.
Print Assumptions C27_signed_offset_refuted.
Print Assumptions C27_signed_truncation_refuted.
Print Assumptions C27_width64_refuted.
Print Assumptions C32_dct_orthonormal.
Print Assumptions C79_p_norm_partial.
Print Assumptions C79_p_norm_refuted.

Example C26_hypotheses_met : repM 2 1 [3; 7] (fun i j => nth (j * 2 + i) [3; 7] 0) /\
  (forall i j, (i < 2)%nat -> (j < 1)%nat -> 2 <= nth (j * 2 + i) [3; 7] 0 <= 10) /\ 2 < 10.
Proof.
  split; [apply repM_nth; reflexivity|]. split; [|lra]. intros i j Hi Hj. destruct j; [|lia]. destruct i as [|[|]]; [cbn; lra|cbn; lra|lia].
Qed.
Example C27_hypotheses_met : (forall i j, (i < 2)%nat -> (j < 1)%nat -> -10 <= nth (j * 2 + i) [-3; 7] 0 <= 10 /\ Rabs (nth (j * 2 + i) [-3; 7] 0) <= (10 - -10) / 2).
Proof. intros i j Hi Hj. destruct j; [|lia]. destruct i as [|[|]]; [cbn|cbn|lia]; (split; [lra|apply Rabs_le; lra]). Qed.
Example C79_hypotheses_met : 1 <= 4 /\ exists k, 4 = IZR (2 * k).
Proof. split; [lra|]. exists 2%Z. reflexivity. Qed.
