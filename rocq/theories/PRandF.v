(** C144: set_random() in double and float. *)
From Coq Require Import ZArith Reals Lra Psatz Bool.
From Flocq Require Import Core.Core IEEE754.BinarySingleNaN IEEE754.Binary IEEE754.Bits.
From Verif Require Import InstF InstF32 MFloat MFloat2 LVector LMatrix LVecProps2 PExtra2 Spec10f LExt32 LF32d PFloat LFloat PFloat2.
From Verif Require PF32 LF32 PF32b.
Local Open Scope R_scope.
Local Instance prec53r : Prec_gt_0 53.
Proof. reflexivity. Qed.
Local Instance prec24r : Prec_gt_0 24.
Proof. reflexivity. Qed.
Local Instance vexp64 : Valid_exp (FLT_exp (-1074) 53).
Proof. apply FLT_exp_valid. reflexivity. Qed.
Local Instance vexp32 : Valid_exp (FLT_exp (-149) 24).
Proof. apply FLT_exp_valid. reflexivity. Qed.
Local Instance vne : Valid_rnd (Znearest (fun x => negb (Z.even x))).
Proof. apply valid_rnd_N. Qed.

Lemma of_Z_fin (z : Z) : (Z.abs z < 2 ^ 31)%Z -> fin (f64_of_Z z) /\ val (f64_of_Z z) = IZR z.
Proof.
  intros Hz. unfold f64_of_Z.
  pose proof (binary_normalize_correct 53 1024 eq_refl eq_refl mode_NE z 0 false) as C.
  assert (EX : F2R (beta := radix2) {| Fnum := z; Fexp := 0 |} = IZR z) by (unfold F2R; cbn; lra).
  cbn [round_mode] in C. change (SpecFloat.fexp 53 1024) with (FLT_exp (-1074) 53) in C.
  assert (G : generic_format radix2 (FLT_exp (-1074) 53) (F2R (beta := radix2) {| Fnum := z; Fexp := 0 |} : R)).
  { apply generic_format_FLT. apply (FLT_spec _ _ _ _ (Float radix2 z 0)); [reflexivity| |discriminate]. cbn [Fnum]. eapply Z.lt_le_trans; [exact Hz|]. discriminate. }
  rewrite (round_generic _ _ _ _ G), EX in C. rewrite Rlt_bool_true in C.
  2:{ eapply Rlt_trans; [|apply (bpow_lt radix2 31 1024); lia]. rewrite <- abs_IZR. change (bpow radix2 31) with (IZR (2 ^ 31)). apply IZR_lt. exact Hz. }
  destruct C as (C1 & C2 & _). split; [exact C2|exact C1].
Qed.
Lemma rnd64_0 : rnd64 0 = 0. Proof. apply round_0, valid_rnd_N. Qed.
Lemma fmt64_Z (z : Z) : (Z.abs z < 2 ^ 31)%Z -> generic_format radix2 (FLT_exp (-1074) 53) (IZR z).
Proof. intros Hz. destruct (of_Z_fin z Hz) as (_ & <-). apply (generic_format_B2R 53 1024). Qed.
Lemma rnd64_Z (z : Z) : (Z.abs z < 2 ^ 31)%Z -> rnd64 (IZR z) = IZR z.
Proof. intros Hz. apply round_generic; [apply valid_rnd_N|apply fmt64_Z, Hz]. Qed.
Lemma rnd64_mono (x y : R) : x <= y -> rnd64 x <= rnd64 y.
Proof. apply round_le; [exact vexp64|exact vne]. Qed.

(** The draw [k] of RM as a real number, and as the double computed for it. *)
Definition exact_draw (k RM : Z) : R := 2 * (IZR k / IZR RM) - 1.
Definition rdraw (k RM : Z) : R := rnd64 (- (1) + rnd64 (2 * rnd64 (IZR k / IZR RM))).
Section Draw.
Context (RM : Z).
Context (HR : (0 < RM < 2 ^ 31)%Z).
Lemma RMpos : 0 < IZR RM.
Proof. apply (IZR_lt 0). lia. Qed.
Lemma quot01 k : (0 <= k <= RM)%Z -> 0 <= IZR k / IZR RM <= 1.
Proof.
  intros [A B]. apply IZR_le in A, B. pose proof RMpos. split.
  - apply Rmult_le_pos; [exact A|]. left; apply Rinv_0_lt_compat; assumption.
  - apply (Rmult_le_reg_r (IZR RM)); [assumption|]. unfold Rdiv. rewrite Rmult_assoc, Rinv_l by lra. lra.
Qed.
Lemma q_range k : (0 <= k <= RM)%Z -> 0 <= rnd64 (IZR k / IZR RM) <= 1.
Proof.
  intros Hk. destruct (quot01 k Hk) as (A & B). split.
  - rewrite <- rnd64_0. apply rnd64_mono, A.
  - rewrite <- (rnd64_Z 1) by (cbn; lia). apply rnd64_mono, B.
Qed.
Lemma t_range k : (0 <= k <= RM)%Z -> 0 <= rnd64 (2 * rnd64 (IZR k / IZR RM)) <= 2.
Proof.
  intros Hk. destruct (q_range k Hk) as (A & B). split.
  - rewrite <- rnd64_0. apply rnd64_mono. lra.
  - apply Rle_trans with (rnd64 2); [apply rnd64_mono; lra|rewrite (rnd64_Z 2) by (cbn; lia); lra].
Qed.
Lemma d_range k : (0 <= k <= RM)%Z -> -1 <= rdraw k RM <= 1.
Proof.
  intros Hk. destruct (t_range k Hk) as (A & B). unfold rdraw. split.
  - apply Rle_trans with (rnd64 (-1)); [rewrite (rnd64_Z (-1)) by (cbn; lia); lra|apply rnd64_mono; lra].
  - apply Rle_trans with (rnd64 1); [apply rnd64_mono; lra|rewrite (rnd64_Z 1) by (cbn; lia); lra].
Qed.
Lemma small_fin (x : R) : Rabs x <= 2 -> Rabs x < bpow radix2 1024.
Proof. intros H. eapply Rle_lt_trans; [exact H|]. change 2 with (bpow radix2 1). apply bpow_lt. lia. Qed.
Lemma cell_parts k : (0 <= k <= RM)%Z ->
  fin (b64_div mode_NE (f64_of_Z k) (f64_of_Z RM)) /\ val (b64_div mode_NE (f64_of_Z k) (f64_of_Z RM)) = rnd64 (IZR k / IZR RM) /\
  fin (random_cell k RM) /\ val (random_cell k RM) = rdraw k RM /\ Rabs (rdraw k RM - exact_draw k RM) <= / 2 ^ 50.
Proof.
  intros Hk. destruct (of_Z_fin k ltac:(lia)) as (Fk & Vk), (of_Z_fin RM ltac:(lia)) as (Fr & Vr).
  pose proof RMpos as RP. pose proof (q_range k Hk) as Qr. pose proof (t_range k Hk) as Tr. pose proof (d_range k Hk) as Dr. pose proof (quot01 k Hk) as Q0.
  destruct (div_fin (f64_of_Z k) (f64_of_Z RM) Fk) as (F1 & V1). { rewrite Vr. lra. }
  { rewrite Vk, Vr. apply small_fin. apply Rabs_le. lra. }
  rewrite Vk, Vr in V1.
  unfold random_cell. set (q := b64_div mode_NE (f64_of_Z k) (f64_of_Z RM)) in *.
  destruct (mult_fin f64_two q eq_refl F1) as (F2 & V2). { rewrite val_two, V1. apply small_fin, Rabs_le. lra. }
  rewrite val_two, V1 in V2. set (t := b64_mult mode_NE f64_two q) in *.
  assert (FO : fin (b64_opp f64_one)) by reflexivity.
  assert (VO : val (b64_opp f64_one) = - (1)) by (unfold val, b64_opp; rewrite B2R_Bopp; change (B2R 53 1024 f64_one) with (val f64_one); rewrite val_one; reflexivity).
  destruct (plus_fin (b64_opp f64_one) t FO F2) as (F3 & V3).
  { rewrite VO, V2. apply small_fin, Rabs_le. unfold rdraw in Dr. lra. }
  rewrite VO, V2 in V3. split; [exact F1|]. split; [exact V1|]. split; [exact F3|]. split; [exact V3|].
  destruct (plus_error (b64_opp f64_one) t) as (d3 & H3 & E3). rewrite VO, V2 in E3. unfold rdraw. rewrite E3.
  destruct (mult_error 2 (rnd64 (IZR k / IZR RM))) as (d2 & e2 & H2 & G2 & E2).
  destruct (mult_error (IZR k) (/ IZR RM)) as (d1 & e1 & H1 & G1 & E1). change (IZR k * / IZR RM) with (IZR k / IZR RM) in E1.
  set (z := IZR k / IZR RM) in *. unfold exact_draw. fold z.
  set (a := rnd64 z) in *. set (b := rnd64 (2 * a)) in *.
  assert (EU : eta <= uro).
  { unfold eta, uro. apply Rinv_le; [apply pow_lt; lra|]. apply Rle_pow; [lra|lia]. }
  pose proof uro_val as UV.
  assert (A1 : Rabs (a - z) <= 2 * uro).
  { rewrite E1. replace (z * (1 + d1) + e1 - z) with (z * d1 + e1) by ring. eapply Rle_trans; [apply Rabs_triang|]. rewrite Rabs_mult, (Rabs_pos_eq z) by lra.
    assert (z * Rabs d1 <= 1 * uro) by (apply Rmult_le_compat; try apply Rabs_pos; lra). lra. }
  assert (A2 : Rabs (b - 2 * a) <= 3 * uro).
  { rewrite E2. replace (2 * a * (1 + d2) + e2 - 2 * a) with (2 * a * d2 + e2) by ring. eapply Rle_trans; [apply Rabs_triang|]. rewrite Rabs_mult, (Rabs_pos_eq (2 * a)) by lra.
    assert (2 * a * Rabs d2 <= 2 * uro) by (apply Rmult_le_compat; try apply Rabs_pos; lra). lra. }
  assert (A3 : Rabs ((- (1) + b) * d3) <= 1 * uro).
  { rewrite Rabs_mult. apply Rmult_le_compat; try apply Rabs_pos; [|exact H3]. apply Rabs_le. lra. }
  apply Rabs_le_inv in A1, A2, A3. assert (/ 2 ^ 50 = 8 * uro) by (rewrite UV; cbn; lra).
  replace ((- (1) + b) * (1 + d3) - (2 * z - 1)) with ((b - 2 * a) + 2 * (a - z) + (- (1) + b) * d3) by ring. apply Rabs_le. lra.
Qed.
Lemma d_mono k k' : (0 <= k <= k')%Z -> (k' <= RM)%Z -> rdraw k RM <= rdraw k' RM.
Proof.
  intros H1 H2. unfold rdraw. apply rnd64_mono. apply Rplus_le_compat_l. apply rnd64_mono. apply Rmult_le_compat_l; [lra|]. apply rnd64_mono.
  apply Rmult_le_compat_r; [left; apply Rinv_0_lt_compat, RMpos|]. apply IZR_le. lia.
Qed.
Lemma d_strict k k' : (0 <= k < k')%Z -> (k' <= RM)%Z -> rdraw k RM < rdraw k' RM.
Proof.
  intros H1 H2. destruct (cell_parts k ltac:(lia)) as (_ & _ & _ & _ & E1), (cell_parts k' ltac:(lia)) as (_ & _ & _ & _ & E2).
  apply Rabs_le_inv in E1, E2.
  assert (G : exact_draw k RM + / 2 ^ 40 <= exact_draw k' RM).
  { unfold exact_draw. pose proof RMpos as RP.
    assert (IZR k / IZR RM + / IZR RM <= IZR k' / IZR RM).
    { unfold Rdiv. assert (IZR k + 1 <= IZR k') by (rewrite <- plus_IZR; apply IZR_le; lia). pose proof (Rinv_0_lt_compat _ RP). nra. }
    assert (/ 2 ^ 40 <= / IZR RM); [|pose proof (Rinv_0_lt_compat _ RP); lra].
    apply Rinv_le; [exact RP|]. replace (2 ^ 40) with (IZR (2 ^ 40)) by (rewrite pow_IZR; reflexivity). apply IZR_le. lia. }
  assert (/ 2 ^ 50 * 1024 = / 2 ^ 40) by (cbn; lra). assert (0 < / 2 ^ 50) by (apply Rinv_0_lt_compat, pow_lt; lra). lra.
Qed.
Lemma d_low : rdraw 0 RM = -1.
Proof.
  unfold rdraw. unfold Rdiv. rewrite Rmult_0_l, rnd64_0, Rmult_0_r, rnd64_0, Rplus_0_r. apply (rnd64_Z (-1)). cbn; lia.
Qed.
Lemma d_high : rdraw RM RM = 1.
Proof.
  unfold rdraw. pose proof RMpos. unfold Rdiv. rewrite Rinv_r, (rnd64_Z 1), Rmult_1_r, (rnd64_Z 2) by (lra || (cbn; lia)).
  replace (- (1) + 2) with 1 by lra. apply (rnd64_Z 1). cbn; lia.
Qed.
(** The same after rounding to float. *)
Lemma rnd32_Z1 (z : Z) : (Z.abs z <= 1)%Z -> rnd32 (IZR z) = IZR z.
Proof.
  intros Hz. apply round_generic; [apply valid_rnd_N|]. apply generic_format_FLT. apply (FLT_spec _ _ _ _ (Float radix2 z 0)).
  - unfold F2R. cbn. lra.
  - cbn. lia.
  - cbn. lia.
Qed.
Lemma rnd32_mono (x y : R) : x <= y -> rnd32 x <= rnd32 y.
Proof. apply round_le; [exact vexp32|exact vne]. Qed.
Lemma cell32 k : (0 <= k <= RM)%Z -> let x := f32_of_f64 (random_cell k RM) in
  PF32.fin x /\ PF32.val x = rnd32 (rdraw k RM) /\ -1 <= PF32.val x <= 1 /\ Rabs (PF32.val x - exact_draw k RM) <= / 2 ^ 23.
Proof.
  intros Hk x. destruct (cell_parts k Hk) as (_ & _ & F & V & E). pose proof (d_range k Hk) as Dr.
  assert (R1 : -1 <= rnd32 (rdraw k RM) <= 1).
  { split.
    - apply Rle_trans with (rnd32 (-1)); [rewrite (rnd32_Z1 (-1)) by (cbn; lia); lra|apply rnd32_mono; lra].
    - apply Rle_trans with (rnd32 1); [apply rnd32_mono; lra|rewrite (rnd32_Z1 1) by (cbn; lia); lra]. }
  destruct (narrow _ F) as (N1 & _ & _). change (val64 (random_cell k RM)) with (val (random_cell k RM)) in N1. rewrite V in N1. fold x in N1.
  unfold rnx in N1. rewrite Rlt_bool_true in N1.
  2:{ apply Rle_lt_trans with 1; [apply Rabs_le; lra|]. change 1 with (bpow radix2 0). apply bpow_lt. lia. }
  assert (FX : PF32.fin x /\ PF32.val x = rnd32 (rdraw k RM)).
  { clearbody x. destruct x; try discriminate N1; injection N1 as N1; split; first [reflexivity|exact N1]. }
  destruct FX as (FX & VX). split; [exact FX|]. split; [exact VX|]. rewrite VX. split; [exact R1|].
  destruct (PF32.mult_error (rdraw k RM) 1) as (d & e & Hd & He & Ed). rewrite Rmult_1_r in Ed. rewrite Ed.
  replace (rdraw k RM * (1 + d) + e - exact_draw k RM) with (rdraw k RM * d + e + (rdraw k RM - exact_draw k RM)) by ring.
  eapply Rle_trans; [apply Rabs_triang|]. eapply Rle_trans; [apply Rplus_le_compat; [apply Rabs_triang|exact E]|]. rewrite Rabs_mult.
  assert (Rabs (rdraw k RM) * Rabs d <= 1 * PF32.uro) by (apply Rmult_le_compat; try apply Rabs_pos; [apply Rabs_le; lra|exact Hd]).
  assert (PF32.eta <= / 2 ^ 50) by (unfold PF32.eta; apply Rinv_le; [apply pow_lt; lra|apply Rle_pow; [lra|lia]]).
  assert (U : PF32.uro = / 16777216) by (unfold PF32.uro; cbn; lra). rewrite U in *. assert (/ 2 ^ 50 <= / 1000000000) by (cbn; lra). assert (/ 2 ^ 23 = / 8388608) by (cbn; lra). lra.
Qed.
Lemma d32_mono k k' : (0 <= k <= k')%Z -> (k' <= RM)%Z -> PF32.val (f32_of_f64 (random_cell k RM)) <= PF32.val (f32_of_f64 (random_cell k' RM)).
Proof.
  intros H1 H2. destruct (cell32 k ltac:(lia)) as (_ & -> & _), (cell32 k' ltac:(lia)) as (_ & -> & _). apply rnd32_mono, d_mono; assumption.
Qed.
End Draw.

(** ** The loops *)
Local Open Scope nat_scope.
Lemma vecf_set_random_spec {cfg : Cfg} rnd RM M (v : list f32) f seed s : repV M v f ->
  let s0 := if (0 <=? seed)%Z then (seed, 0) else s in
  returns (vecf_set_random rnd RM M v seed s) (fun '(r, s') =>
    repV M r (fun i => f32_of_f64 (random_cell (rnd (fst s0) (snd s0 + i)%nat) RM)) /\ s' = (fst s0, snd s0 + M)).
Proof.
  intros Hv s0. unfold vecf_set_random. fold s0. set (g := fun i => f32_of_f64 (random_cell (rnd (fst s0) (snd s0 + i)%nat) RM)).
  eapply returns_impl; [apply (for_inv (fun i '(r, s') => repV M r (fun k => if k <? i then g k else f k) /\ s' = (fst s0, snd s0 + i))); [lia| |]|].
  - split; [eapply repV_ext; [exact Hv|]; reflexivity|]. rewrite Nat.add_0_r. destruct s0; reflexivity.
  - intros i [l s'] Hi [Hl ->]. cbn [rand_next fst snd]. fold (g i). rewrite vset_ok by lia.
    destruct (repV_wr M l _ i (g i) Hl ltac:(lia)) as [E HR]. rewrite E. cbn [bind]. apply returns_ok. split; [|f_equal; lia].
    eapply repV_ext; [exact HR|]. intros k Hk; cbv beta.
    destruct (Nat.eqb_spec k i) as [->|Ne]; [destruct (Nat.ltb_spec i (S i)); [reflexivity|lia]|].
    destruct (Nat.ltb_spec k i), (Nat.ltb_spec k (S i)); try reflexivity; lia.
  - intros [r s'] [Hr ->]. split; [|reflexivity]. eapply repV_ext; [exact Hr|]. intros k Hk; cbv beta. destruct (Nat.ltb_spec k M); [reflexivity|lia].
Qed.
Lemma matf_set_random_spec {cfg : Cfg} rnd RM M N (m : list f32) f seed s : repM M N m f ->
  let s0 := if (0 <=? seed)%Z then (seed, 0) else s in
  returns (matf_set_random rnd RM M N m seed s) (fun '(x, s') =>
    repM M N x (fun r c => f32_of_f64 (random_cell (rnd (fst s0) (snd s0 + (r * N + c))%nat) RM)) /\ s' = (fst s0, snd s0 + M * N)).
Proof.
  intros Hm s0. unfold matf_set_random. fold s0.
  set (g := fun r c => f32_of_f64 (random_cell (rnd (fst s0) (snd s0 + (r * N + c))%nat) RM)).
  eapply returns_impl; [apply (for_inv (fun i '(x, s') => repM M N x (fun r c => if r <? i then g r c else f r c) /\
     s' = (fst s0, snd s0 + i * N))); [lia| |]|].
  - split; [eapply repM_ext; [exact Hm|]; reflexivity|]. rewrite Nat.add_0_r. destruct s0; reflexivity.
  - intros r [x s'] Hr [Hx ->].
    eapply returns_impl; [apply (for_inv (fun j '(x, s') => repM M N x (fun r' c => if (r' <? r) || ((r' =? r) && (c <? j)) then g r' c else f r' c) /\
       s' = (fst s0, snd s0 + (r * N + j)))); [lia| |]|].
    + split; [|rewrite Nat.add_0_r; reflexivity]. eapply repM_ext; [exact Hx|]. intros r' c' _ _; cbv beta.
      rewrite andb_false_r, orb_false_r. reflexivity.
    + intros c [y s'] Hc [Hy ->]. cbn [rand_next fst snd]. fold (g r c).
      destruct (mat_put_rep M N y _ r c (g r c) Hy ltac:(lia) ltac:(lia)) as (y' & E & H). rewrite E. cbn [bind].
      apply returns_ok. split; [|f_equal; lia]. eapply repM_ext; [exact H|]. intros r' c' Hr' Hc'; cbv beta.
      destruct (Nat.eqb_spec r' r) as [->|Ne], (Nat.eqb_spec c' c) as [->|Nc]; cbn [andb orb]; rewrite ?orb_false_r; try reflexivity.
      * rewrite Nat.ltb_irrefl. destruct (Nat.ltb_spec c (S c)); [reflexivity|lia].
      * rewrite Nat.ltb_irrefl. cbn [orb]. destruct (Nat.ltb_spec c' c), (Nat.ltb_spec c' (S c)); try reflexivity; lia.
    + intros [y s'] [Hy ->]. split; [|f_equal; lia]. eapply repM_ext; [exact Hy|]. intros r' c' Hr' Hc'; cbv beta.
      destruct (Nat.ltb_spec r' r), (Nat.ltb_spec r' (S r)), (Nat.eqb_spec r' r), (Nat.ltb_spec c' N); cbn; try reflexivity; lia.
  - intros [x s'] [Hx ->]. split; [|reflexivity]. eapply repM_ext; [exact Hx|]. intros r c Hr Hc; cbv beta.
    destruct (Nat.ltb_spec r M); [reflexivity|lia].
Qed.

(** ** The property *)
(** The numbers [V 0], ..., [V (n-1)] are the draws of rand(), taken from [0, RM],
    mapped to [-1, 1] with at most [err] of error; the ends are exact and larger
    draws never give smaller numbers. *)
Definition samples_of (n : nat) (V : nat -> R) (draw : nat -> Z) (RM : Z) (err : R) : Prop :=
  forall i, i < n -> (-1 <= V i <= 1)%R /\ (Rabs (V i - (2 * (IZR (draw i) / IZR RM) - 1)) <= err)%R /\
    (draw i = 0%Z -> V i = (-1)%R) /\ (draw i = RM -> V i = 1%R) /\
    (forall j, j < n -> (draw i <= draw j)%Z -> (V i <= V j)%R).
Lemma samples64 n RM (draw : nat -> Z) : (0 < RM < 2 ^ 31)%Z -> (forall k, (0 <= draw k <= RM)%Z) ->
  (forall i, i < n -> fin (random_cell (draw i) RM)) /\ samples_of n (fun i => val (random_cell (draw i) RM)) draw RM (/ 2 ^ 50) /\
  (forall i j, i < n -> j < n -> (draw i < draw j)%Z -> (val (random_cell (draw i) RM) < val (random_cell (draw j) RM))%R).
Proof.
  intros HR HD. assert (V : forall k, val (random_cell (draw k) RM) = rdraw (draw k) RM) by (intros k; apply (cell_parts RM HR), HD).
  split; [intros i Hi; apply (cell_parts RM HR), HD|]. split.
  - intros i Hi. rewrite V. split; [apply d_range; [exact HR|apply HD]|]. split; [apply (cell_parts RM HR), HD|].
    split; [intros ->; apply d_low; exact HR|]. split; [intros ->; apply d_high; exact HR|]. intros j Hj Hd. rewrite V. apply d_mono; [exact HR| |]; pose proof (HD i); pose proof (HD j); lia.
  - intros i j Hi Hj Hd. rewrite !V. apply d_strict; [exact HR| |]; pose proof (HD i); pose proof (HD j); lia.
Qed.
Lemma samples32 n RM (draw : nat -> Z) : (0 < RM < 2 ^ 31)%Z -> (forall k, (0 <= draw k <= RM)%Z) ->
  (forall i, i < n -> PF32.fin (f32_of_f64 (random_cell (draw i) RM))) /\ samples_of n (fun i => PF32.val (f32_of_f64 (random_cell (draw i) RM))) draw RM (/ 2 ^ 23).
Proof.
  intros HR HD. split; [intros i Hi; apply (cell32 RM HR), HD|]. intros i Hi. destruct (cell32 RM HR (draw i) (HD i)) as (_ & Vi & R1 & E1).
  split; [exact R1|]. split; [exact E1|]. rewrite Vi.
  split; [intros ->; rewrite d_low by exact HR; apply (rnd32_Z1 (-1)); cbn; lia|]. split; [intros ->; rewrite d_high by exact HR; apply (rnd32_Z1 1); cbn; lia|].
  intros j Hj Hd. rewrite <- Vi. apply d32_mono; [exact HR| |]; pose proof (HD i); pose proof (HD j); lia.
Qed.

Theorem C144_set_random_double :
  forall (cfg : Cfg) (rand : Z -> nat -> Z) (RAND_MAX : Z) (M N : nat) (v m : list f64) (seed : Z) (s : rng), let ST := F64Scalar in
  (0 < RAND_MAX < 2 ^ 31)%Z -> (forall seq k, (0 <= rand seq k <= RAND_MAX)%Z) -> length v = M -> length m = M * N ->
  let start := if (0 <=? seed)%Z then (seed, 0) else s in
  let draw k := rand (fst start) (snd start + k) in
  exists (r x : list f64) (g : nat -> f64),
    vec_set_random rand RAND_MAX f64_of_Z M v seed s = Ok (r, (fst start, snd start + M)) /\ repV M r g /\
    mat_set_random rand RAND_MAX f64_of_Z M N m seed s = Ok (x, (fst start, snd start + M * N)) /\ repM M N x (fun i j => g (i * N + j)) /\
    forall n, (forall i, i < n -> fin (g i)) /\ samples_of n (fun i => val (g i)) draw RAND_MAX (/ 2 ^ 50) /\
      (forall i j, i < n -> j < n -> (draw i < draw j)%Z -> (val (g i) < val (g j))%R).
Proof.
  intros cfg rand RM M N v m seed s ST HR HD Lv Lm start draw.
  destruct (vec_set_random_spec rand RM f64_of_Z M v _ seed s (fun i => b64_div mode_NE (f64_of_Z (draw i)) (f64_of_Z RM)) (repV_nth M v f64_zero Lv)) as ([r st] & E & Hr & Hst).
  { intros i Hi. reflexivity. }
  destruct (mat_set_random_spec rand RM f64_of_Z M N m _ seed s (fun i j => b64_div mode_NE (f64_of_Z (draw (i * N + j))) (f64_of_Z RM)) (repM_nth M N m f64_zero Lm)) as ([x st'] & E' & Hx & Hst').
  { intros i j Hi Hj. reflexivity. }
  fold start in Hst, Hst'. subst st st'. exists r, x, (fun i => random_cell (draw i) RM).
  split; [exact E|]. split; [exact Hr|]. split; [exact E'|]. split; [exact Hx|]. intros n. apply samples64; [exact HR|]. intros k. apply HD.
Qed.
Print Assumptions C144_set_random_double.
Theorem C144_set_random_float :
  forall (cfg : Cfg) (rand : Z -> nat -> Z) (RAND_MAX : Z) (M N : nat) (v m : list f32) (seed : Z) (s : rng),
  (0 < RAND_MAX < 2 ^ 31)%Z -> (forall seq k, (0 <= rand seq k <= RAND_MAX)%Z) -> length v = M -> length m = M * N ->
  let start := if (0 <=? seed)%Z then (seed, 0) else s in
  let draw k := rand (fst start) (snd start + k) in
  exists (r x : list f32) (g : nat -> f32),
    vecf_set_random rand RAND_MAX M v seed s = Ok (r, (fst start, snd start + M)) /\ repV M r g /\
    matf_set_random rand RAND_MAX M N m seed s = Ok (x, (fst start, snd start + M * N)) /\ repM M N x (fun i j => g (i * N + j)) /\
    forall n, (forall i, i < n -> PF32.fin (g i)) /\ samples_of n (fun i => PF32.val (g i)) draw RAND_MAX (/ 2 ^ 23).
Proof.
  intros cfg rand RM M N v m seed s HR HD Lv Lm start draw.
  destruct (vecf_set_random_spec rand RM M v _ seed s (repV_nth M v f32_zero Lv)) as ([r st] & E & Hr & Hst).
  destruct (matf_set_random_spec rand RM M N m _ seed s (repM_nth M N m f32_zero Lm)) as ([x st'] & E' & Hx & Hst').
  fold start in Hr, Hx, Hst, Hst'. subst st st'. exists r, x, (fun i => f32_of_f64 (random_cell (draw i) RM)).
  split; [exact E|]. split; [exact Hr|]. split; [exact E'|]. split; [exact Hx|]. intros n. apply samples32; [exact HR|]. intros k. apply HD.
Qed.
Print Assumptions C144_set_random_float.
(** RAND_MAX of glibc and a sequence that takes both ends. *)
Example C144_hypotheses_met :
  (0 < 2147483647 < 2 ^ 31)%Z /\ (forall (seq : Z) (k : nat), (0 <= (if Nat.even k then 0 else 2147483647) <= 2147483647)%Z).
Proof. split; [lia|]. intros _ k. destruct (Nat.even k); lia. Qed.
