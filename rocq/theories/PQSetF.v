(** Property C180: a float quaternion from an inexact rotation matrix. *)
From Coq Require Import ZArith Reals Lra Psatz List.
From Flocq Require Import Core.Core IEEE754.BinarySingleNaN IEEE754.Binary IEEE754.Bits.
From Verif Require Import InstF InstF32 LVector MVector LMatrix MMatrix LSum MQuaternion MLit MFloat MDouble MQSetF Spec Spec3 PQuaternion PF32 LF32 PF32b Spec10f LExt32 LF32d PF32d LExprF PCullF PFrustumF32 PDouble PEqF32 PQuatF32 LRot LQSet PQrF32 PRotF32.
From Verif Require PFloat LFloat PFloat2 LErr PQrF PQSet PFilter LErr.
Import ListNotations.
Local Open Scope R_scope.
Local Existing Instance F32Scalar.
Local Notation bp := (bpow radix2).
Local Notation mul := (b32_mult mode_NE).
Local Notation add := (b32_plus mode_NE).
Local Notation sub := (b32_minus mode_NE).
Local Notation div64 := (b64_div mode_NE).
Local Notation v64 := PFloat.val.
Local Notation wd := f64_of_f32.

Lemma wid (x : f32) : fin x -> PFloat.fin (wd x) /\ v64 (wd x) = val x.
Proof. intros F. destruct (widen x F) as (A & B & _). split; [exact A|exact B]. Qed.
Lemma eta_small : 0 < eta <= uro / 100.
Proof. split; [apply eta_pos|]. rewrite <- eta_bpow, uro_val. apply Rle_trans with (bp (-100)); [|cbn; lra]. pose proof (bpow_ge_0 radix2 (-149)). apply Rle_trans with (bp (-149)); [lra|apply bpow_le; lia]. Qed.
Lemma u64_small : 0 < PFloat.uro <= uro / 100000000.
Proof. split; [apply PFloat.uro_pos|]. rewrite PFloat2.uro_val, uro_val. lra. Qed.

(** ** One branch: r is the square root of P, computed in double or in float *)
Section Branch.
Context (a E P : R) (r : f64).
Hypotheses (Ha : 0 < a <= 1) (HU : 4 * uro <= E) (HE : E <= a * a / 100) (Hp : Rabs (P - 4 * (a * a)) <= 3 * E)
  (Hr : Rabs (v64 r - sqrt P) <= 1001 / 1000 * uro * sqrt P).
Let s : f32 := qf_scale r.
Lemma branch_s : fin s /\ Rabs (4 * a * val s - 1) <= E / (a * a) /\ bp (-10) <= val s <= bp 30.
Proof.
  pose proof uro_pos as UP. pose proof uro_val as UV. assert (HE0 : 0 <= E <= a * a / 100) by lra.
  apply abs_le_inv in Hp as Hp'. assert (A2 : 400 * uro <= a * a <= 1) by nra. assert (P0 : 0 < P) by lra.
  assert (SL : bp (-22) <= sqrt P <= bp 2).
  { split.
    - apply Rsqr_incr_0_var; [|apply sqrt_pos]. unfold Rsqr. rewrite sqrt_sqrt by lra. rewrite <- bpow_plus. apply Rle_trans with (350 / 100 * (400 * uro)); [rewrite UV; cbn; lra|lra].
    - apply Rsqr_incr_0_var; [|apply bpow_ge_0]. unfold Rsqr. rewrite sqrt_sqrt by lra. change (bp 2) with 4. lra. }
  pose proof (bpow_gt_0 radix2 (-22)) as B22. destruct (rel_factor (v64 r) (sqrt P) (1001 / 1000 * uro) ltac:(lra) Hr) as (d1 & Hd1 & Er).
  set (q := sqrt P) in *.
  assert (U1 : uro <= / 1000000) by (rewrite UV; lra). apply abs_le_inv in Hd1 as D1.
  assert (RP : 0 < v64 r) by (rewrite Er; apply Rmult_lt_0_compat; lra).
  assert (VH : v64 f64_half / v64 r = / 2 / q * / (1 + d1)) by (rewrite LErr.val_half, Er; field; lra).
  assert (I1 : 99 / 100 <= / (1 + d1) <= 101 / 100).
  { split; [apply (Rmult_le_reg_r (1 + d1)); [lra|]; rewrite Rinv_l by lra; lra|apply (Rmult_le_reg_r (1 + d1)); [lra|]; rewrite Rinv_l by lra; lra]. }
  assert (IQ : bp (-2) <= / q <= bp 22). { split; [change (-2)%Z with (Z.opp 2); rewrite bpow_opp; apply Rinv_le; lra|change 22%Z with (Z.opp (-22)); rewrite bpow_opp; apply Rinv_le; lra]. }
  set (h := / 2 / q * / (1 + d1)) in *.
  assert (HH : bp (-8) <= h <= bp 27).
  { unfold h. split; [apply Rle_trans with (/ 2 * bp (-2) * (99 / 100)); [cbn; lra|]|apply Rle_trans with (/ 2 * bp 22 * (101 / 100)); [|cbn; lra]];
      (apply Rmult_le_compat; [| |unfold Rdiv; apply Rmult_le_compat_l; lra|lra]); pose proof (bpow_ge_0 radix2 (-2)); unfold Rdiv; try apply Rmult_le_pos; lra. }
  pose proof (bpow_gt_0 radix2 (-8)) as B8.
  assert (AH : Rabs h <= bp 27) by (rewrite Rabs_pos_eq; lra).
  destruct (LFloat.div_fin f64_half r ltac:(reflexivity) ltac:(lra)) as (Fs & Es).
  { rewrite VH. eapply Rle_lt_trans; [apply (LFloat.rnd_le _ 27 ltac:(lia) AH)|]. apply bpow_lt. lia. }
  rewrite VH in Es. destruct (LFloat.rnd_rel h) as (d2 & Hd2 & E2). { rewrite Rabs_pos_eq by lra. apply Rle_trans with (2 := proj1 HH). apply bpow_le. lia. }
  rewrite E2 in Es. pose proof u64_small as U6. apply abs_le_inv in Hd2 as D2.
  set (dd := div64 f64_half r) in *.
  assert (DB : bp (-9) <= v64 dd <= bp 28).
  { rewrite Es. change (bp (-9)) with (bp (-8 + -1)). change (bp 28) with (bp (27 + 1)). rewrite !bpow_plus. change (bp (-1)) with (/ 2). change (bp 1) with 2.
    split; apply Rmult_le_compat; lra. }
  pose proof (bpow_gt_0 radix2 (-9)) as B9.
  destruct (PFilter.narrow_fin dd 28 Fs ltac:(rewrite Rabs_pos_eq by lra; apply DB) ltac:(lia)) as ((F & _) & N).
  change (f32_of_f64 dd) with s in *. rewrite (Rabs_pos_eq (v64 dd)) in N by lra. pose proof eta_small as ET.
  assert (EH : eta <= / 1000 * uro * v64 dd).
  { apply Rle_trans with (bp (-10) * uro * bp (-9)).
    - rewrite <- eta_bpow. pose proof (bpow_ge_0 radix2 (-149)). apply Rle_trans with (bp (-149)); [lra|]. replace uro with (bp (-24)) by (rewrite UV; cbn; lra). rewrite <- !bpow_plus. apply bpow_le. lia.
    - apply Rmult_le_compat; [|lra| |apply DB]; [apply Rmult_le_pos; [apply bpow_ge_0|lra]|]. apply Rmult_le_compat_r; [lra|]. cbn. lra. }
  assert (N' : Rabs (val s - v64 dd) <= 1001 / 1000 * uro * v64 dd) by lra.
  destruct (rel_factor (val s) (v64 dd) (1001 / 1000 * uro) ltac:(lra) N') as (d3 & Hd3 & E3). apply abs_le_inv in Hd3 as D3.
  split; [exact F|]. split.
  - apply (core_S a P (val s) (204 / 100 * uro) E); try assumption; try lra. fold q.
    assert (Q0 : 0 < / 2 / q) by (apply Rmult_lt_0_compat; [lra|apply Rinv_0_lt_compat; lra]).
    replace (val s - / 2 / q) with (((1 + d2) * (1 + d3) / (1 + d1) - 1) * (/ 2 / q)) by (rewrite E3, Es; unfold h; field; lra).
    rewrite Rabs_mult, (Rabs_pos_eq (/ 2 / q)) by lra. apply Rmult_le_compat_r; [lra|].
    replace ((1 + d2) * (1 + d3) / (1 + d1) - 1) with ((d2 + d3 + d2 * d3 - d1) * / (1 + d1)) by (field; lra).
    assert (I2 : / (1 + d1) <= 1001 / 1000) by (apply (Rmult_le_reg_r (1 + d1)); [lra|]; rewrite Rinv_l by lra; lra).
    assert (D23 : Rabs (d2 * d3) <= / 1000 * uro). { rewrite Rabs_mult. apply Rle_trans with (/ 10000 * (1001 / 1000 * uro)); [apply Rmult_le_compat; try apply Rabs_pos; lra|lra]. } apply abs_le_inv in D23.
    rewrite Rabs_mult, (Rabs_pos_eq (/ (1 + d1))) by lra. apply Rle_trans with (2005 / 1000 * uro * (1001 / 1000)); [|lra].
    apply Rmult_le_compat; [apply Rabs_pos|lra|apply Rabs_le; lra|exact I2].
  - rewrite E3. change (bp (-10)) with (bp (-9 + -1)). split.
    + rewrite bpow_plus. change (bp (-1)) with (/ 2). apply Rmult_le_compat; lra.
    + apply Rle_trans with (bp (28 + 1)); [|apply bpow_le; lia]. rewrite bpow_plus. change (bp 1) with 2. apply Rmult_le_compat; lra.
Qed.
Lemma branch_main : fin (qf_quarter s) /\ Rabs (val (qf_quarter s) - a) <= 2 * E / (a * a).
Proof.
  pose proof uro_pos as UP. destruct branch_s as (Fs & Hs & Bs). pose proof (bpow_gt_0 radix2 (-10)) as B10. pose proof eta_small as ET. pose proof u64_small as U6.
  destruct (wid s Fs) as (Fw & Vw). unfold qf_quarter. rewrite PQSet.lit_quarter.
  assert (Q : Rabs (v64 PQSet.f64_quarter / v64 (wd s)) <= bp 10).
  { rewrite PQSet.val_quarter, Vw. unfold Rdiv. rewrite Rabs_pos_eq by (apply Rmult_le_pos; [lra|apply Rlt_le, Rinv_0_lt_compat; lra]).
    apply Rle_trans with (1 * / val s); [apply Rmult_le_compat_r; [apply Rlt_le, Rinv_0_lt_compat; lra|lra]|]. rewrite Rmult_1_l.
    change 10%Z with (Z.opp (-10)). rewrite bpow_opp. apply Rinv_le; [exact B10|apply Bs]. }
  destruct (LFloat.div_fin PQSet.f64_quarter (wd s) ltac:(reflexivity) ltac:(lra)) as (F & V). { eapply Rle_lt_trans; [apply (LFloat.rnd_le _ 10 ltac:(lia) Q)|]. apply bpow_lt. lia. }
  destruct (PQrF.rnd_error (v64 PQSet.f64_quarter / v64 (wd s))) as (d & n & Hd & Hn & R0). rewrite R0 in V.
  pose proof (LFloat.rnd_le _ 10 ltac:(lia) Q) as RB. rewrite R0, <- V in RB. rewrite PQSet.val_quarter, Vw in *.
  set (dd := div64 PQSet.f64_quarter (wd s)) in *.
  destruct (narrow dd F) as (N1 & N2 & _). unfold rnx in N1. change (B2R 53 1024 dd) with (v64 dd) in N1.
  assert (RB2 : Rabs (round radix2 (FLT_exp (-149) 24) (Znearest (fun x => negb (Z.even x))) (v64 dd)) <= bp 10) by (apply rnd_le; [lia|exact RB]).
  rewrite Rlt_bool_true in N1 by (eapply Rle_lt_trans; [exact RB2|]; apply bpow_lt; lia).
  destruct (PFilter.narrow_fin dd 10 F RB ltac:(lia)) as ((FN & _) & _). split; [exact FN|].
  rewrite (value_fin _ FN) in N1. injection N1 as N1.
  destruct (rnd_error (v64 dd)) as (d3 & n3 & Hd3 & Hn3 & R3). rewrite R3 in N1.
  change (bp 10) with 1024 in *. assert (NE : PFloat.eta <= PFloat.uro / 100) by apply PQSet.eta_small.
  assert (U1 : uro <= / 1000000) by (rewrite uro_val; lra).
  set (Y := / 4 / val s) in *.
  apply (core_main a (val s) E _ d3 ((Y * d + n) * (1 + d3) + n3) Ha ltac:(lra) Hs); [lra| |rewrite N1, V; fold Y; ring].
  assert (T1 : Rabs (Y * d) <= 1024 * PFloat.uro) by (rewrite Rabs_mult; apply Rmult_le_compat; try apply Rabs_pos; assumption).
  assert (T2 : Rabs ((Y * d + n) * (1 + d3)) <= 1025 * PFloat.uro * 2).
  { rewrite Rabs_mult. apply Rmult_le_compat; try apply Rabs_pos; [eapply Rle_trans; [apply Rabs_triang|]; lra|]. apply abs_le_inv in Hd3. apply Rabs_le. lra. }
  assert (ES : eta <= uro / 1000000).
  { rewrite <- eta_bpow. pose proof (bpow_ge_0 radix2 (-149)). apply Rle_trans with (bp (-100)); [apply Rle_trans with (bp (-149)); [lra|apply bpow_le; lia]|rewrite uro_val; cbn; lra]. }
  eapply Rle_trans; [apply Rabs_triang|]. lra.
Qed.
Lemma branch_off (c : f32) (b : R) : Rabs b <= 1 -> fin c -> Rabs (val c - 4 * a * b) <= 2 * E -> fin (mul c s) /\ Rabs (val (mul c s) - b) <= 2 * E / (a * a).
Proof.
  intros Hb Fc Hc. pose proof uro_pos as UP. destruct branch_s as (Fs & Hs & Bs). pose proof (bpow_gt_0 radix2 (-10)) as B10. pose proof eta_small as ET.
  assert (CB : Rabs (val c) <= bp 3).
  { apply abs_le_inv in Hc, Hb. change (bp 3) with 8. assert (a * a <= 1) by nra. assert (- 1 <= a * b <= 1) by nra. apply Rabs_le. lra. }
  assert (SB : okf32 30 s) by (split; [exact Fs|rewrite Rabs_pos_eq by lra; apply Bs]).
  assert (PB : Rabs (val c * val s) <= bp 33) by (rewrite Rabs_mult; change 33%Z with (3 + 30)%Z; rewrite bpow_plus; apply Rmult_le_compat; try apply Rabs_pos; [exact CB|apply SB]).
  destruct (mult_fin c s Fc Fs) as (F & V). { eapply Rle_lt_trans; [apply (rnd_le _ 33 ltac:(lia) PB)|]. apply bpow_lt. lia. }
  split; [exact F|]. destruct (mult_error (val c) (val s)) as (d & n & Hd & Hn & R0). rewrite R0 in V.
  apply (core_off a b (val s) E (val c) _ d n Ha ltac:(lra) Hs Hb Hc); [lra|lra|exact V].
Qed.
End Branch.

(** ** The sums *)
Definition cell (e : R) (x : f32) (X : R) : Prop := fin x /\ Rabs X <= 1 /\ Rabs (val x - X) <= e.
Lemma cell_okf e x X : 0 <= e <= / 100 -> cell e x X -> okf32 1 x.
Proof. intros He (F & B & D). split; [exact F|]. apply abs_le_inv in B, D. change (bp 1) with 2. apply Rabs_le. lra. Qed.
Lemma one_okf : okf32 1 f32_one.
Proof. apply (okf32_const _ 1); [reflexivity|exact val_one|]. rewrite Rabs_R1. change (bp 1) with 2. lra. Qed.
Lemma u_times x b : Rabs x <= b -> uro * Rabs x <= uro * b.
Proof. intros H. apply Rmult_le_compat_l; [pose proof uro_pos; lra|exact H]. Qed.
Lemma add_two e x1 x2 X1 X2 : 0 <= e <= / 100 -> cell e x1 X1 -> cell e x2 X2 -> fin (add x1 x2) /\ Rabs (val (add x1 x2) - (X1 + X2)) <= 2 * e + 3 * uro.
Proof.
  intros He C1 C2. destruct (okf32_plus 1 x1 x2 (cell_okf e x1 X1 He C1) (cell_okf e x2 X2 He C2) ltac:(lia)) as ((F & _) & D). split; [exact F|].
  destruct C1 as (_ & B1 & D1), C2 as (_ & B2 & D2). apply abs_le_inv in B1, B2, D1, D2. pose proof (u_times (val x1 + val x2) 3 ltac:(apply Rabs_le; lra)) as U. pose proof uro_pos.
  assert (D' : Rabs (val (add x1 x2) - (val x1 + val x2)) <= 3 * uro) by lra. apply abs_le_inv in D'. apply Rabs_le. lra.
Qed.
Lemma sub_two e x1 x2 X1 X2 : 0 <= e <= / 100 -> cell e x1 X1 -> cell e x2 X2 -> fin (sub x1 x2) /\ Rabs (val (sub x1 x2) - (X1 - X2)) <= 2 * e + 3 * uro.
Proof.
  intros He C1 C2. destruct (okf32_minus 1 x1 x2 (cell_okf e x1 X1 He C1) (cell_okf e x2 X2 He C2) ltac:(lia)) as ((F & _) & D). split; [exact F|].
  destruct C1 as (_ & B1 & D1), C2 as (_ & B2 & D2). apply abs_le_inv in B1, B2, D1, D2. pose proof (u_times (val x1 - val x2) 3 ltac:(apply Rabs_le; lra)) as U. pose proof uro_pos.
  assert (D' : Rabs (val (sub x1 x2) - (val x1 - val x2)) <= 3 * uro) by lra. apply abs_le_inv in D'. apply Rabs_le. lra.
Qed.
Lemma trace_sum e x1 x2 x3 X1 X2 X3 : 0 <= e <= / 100 -> cell e x1 X1 -> cell e x2 X2 -> cell e x3 X3 ->
  fin (add (add (add x1 x2) x3) f32_one) /\ Rabs (val (add (add (add x1 x2) x3) f32_one) - (X1 + X2 + X3 + 1)) <= 3 * e + 12 * uro.
Proof.
  intros He C1 C2 C3. pose proof uro_pos as UP. assert (U1 : uro <= / 1000000) by (rewrite uro_val; lra).
  destruct (okf32_plus 1 x1 x2 (cell_okf e x1 X1 He C1) (cell_okf e x2 X2 He C2) ltac:(lia)) as (O1 & D1).
  destruct (okf32_plus 2 _ x3 O1 (okf32_le 1 2 x3 (cell_okf e x3 X3 He C3) ltac:(lia)) ltac:(lia)) as (O2 & D2).
  destruct (okf32_plus 3 _ f32_one O2 (okf32_le 1 3 _ one_okf ltac:(lia)) ltac:(lia)) as ((F & _) & D3). split; [exact F|]. rewrite val_one in D3.
  destruct C1 as (_ & B1 & E1), C2 as (_ & B2 & E2), C3 as (_ & B3 & E3). apply abs_le_inv in B1, B2, B3, E1, E2, E3.
  set (t1 := val (add x1 x2)) in *. set (t2 := val (add (add x1 x2) x3)) in *. set (t3 := val (add (add (add x1 x2) x3) f32_one)) in *.
  pose proof (u_times (val x1 + val x2) (203 / 100) ltac:(apply Rabs_le; lra)) as M1. assert (D1' : Rabs (t1 - (val x1 + val x2)) <= 203 / 100 * uro) by lra. apply abs_le_inv in D1'.
  pose proof (u_times (t1 + val x3) (305 / 100) ltac:(apply Rabs_le; lra)) as M2. assert (D2' : Rabs (t2 - (t1 + val x3)) <= 305 / 100 * uro) by lra. apply abs_le_inv in D2'.
  pose proof (u_times (t2 + 1) (406 / 100) ltac:(apply Rabs_le; lra)) as M3. assert (D3' : Rabs (t3 - (t2 + 1)) <= 406 / 100 * uro) by lra. apply abs_le_inv in D3'.
  apply Rabs_le. lra.
Qed.
Lemma max3 (a b c : f32) : fin a -> fin b -> fin c -> exists k, vec_find_max_index [a; b; c] = Ok k /\
  (k = 0%nat /\ val b <= val a /\ val c <= val a \/ k = 1%nat /\ val a < val b /\ val c <= val b \/ k = 2%nat /\ val a < val c /\ val b < val c).
Proof.
  intros Fa Fb Fc. unfold vec_find_max_index, max_element_by. cbn -[Bltb32].
  pose proof (Bltb32_fin a b Fa Fb) as H1. pose proof (Bltb32_fin_false a b Fa Fb) as H2. pose proof (Bltb32_fin a c Fa Fc) as H3. pose proof (Bltb32_fin_false a c Fa Fc) as H4. pose proof (Bltb32_fin b c Fb Fc) as H5. pose proof (Bltb32_fin_false b c Fb Fc) as H6.
  destruct (Bltb32 a b); cbn -[Bltb32]; [destruct (Bltb32 b c)|destruct (Bltb32 a c)]; cbn -[Bltb32]; eexists; (split; [reflexivity|]).
  - right; right. repeat split; [apply Rlt_trans with (val b); [apply H1|apply H5]|apply H5]; reflexivity.
  - right; left. repeat split; [apply H1|apply H6]; reflexivity.
  - right; right. assert (val a < val c) by (apply H3; reflexivity). assert (val b <= val a) by (apply H2; reflexivity). repeat split; lra.
  - left. repeat split; [apply H2|apply H4]; reflexivity.
Qed.

(** ** The run *)
Lemma trace_float a b c : fin (add (add (add a b) c) f32_one) -> fin (qf_trace a b c) /\ val (qf_trace a b c) = val (add (add (add a b) c) f32_one).
Proof.
  intros F. assert (O : f64_one = wd f32_one) by (apply LF64.bits_inj; vm_compute; reflexivity). unfold qf_trace. rewrite O.
  exact (same_val _ _ (plus_via (add (add a b) c) f32_one) F).
Qed.
Definition root_ok (rt : f32 -> f64) : Prop := rt = rt_double \/ rt = rt_float.
Lemma root_near rt t : root_ok rt -> fin t -> bp (-100) <= val t -> PFloat.fin (rt t) /\ Rabs (v64 (rt t) - sqrt (val t)) <= 1001 / 1000 * uro * sqrt (val t).
Proof.
  intros [->| ->] F L; pose proof (bpow_gt_0 radix2 (-100)) as B; pose proof uro_pos as UP; pose proof u64_small as U6.
  - unfold rt_double. destruct (wid t F) as (Fw & Vw). destruct (LFloat.sqrt_fin (wd t) Fw ltac:(lra)) as (Fr & Er). split; [exact Fr|]. rewrite Er, Vw.
    destruct (LFloat.rnd_rel (sqrt (val t))) as (d & Hd & ->).
    { rewrite Rabs_pos_eq by apply sqrt_pos. apply Rsqr_incr_0_var; [|apply sqrt_pos]. unfold Rsqr. rewrite sqrt_sqrt by lra. rewrite <- bpow_plus. apply Rle_trans with (2 := L). apply bpow_le. lia. }
    replace (sqrt (val t) * (1 + d) - sqrt (val t)) with (d * sqrt (val t)) by ring. rewrite Rabs_mult, (Rabs_pos_eq (sqrt _)) by apply sqrt_pos. apply Rmult_le_compat_r; [apply sqrt_pos|lra].
  - unfold rt_float. destruct (sqrt_fin t F ltac:(lra)) as (Fr & Er). destruct (wid _ Fr) as (Fw & Vw). split; [exact Fw|]. rewrite Vw, Er.
    destruct (rnd_rel (sqrt (val t))) as (d & Hd & ->).
    { rewrite Rabs_pos_eq by apply sqrt_pos. apply Rsqr_incr_0_var; [|apply sqrt_pos]. unfold Rsqr. rewrite sqrt_sqrt by lra. rewrite <- bpow_plus. apply Rle_trans with (2 := L). apply bpow_le. lia. }
    replace (sqrt (val t) * (1 + d) - sqrt (val t)) with (d * sqrt (val t)) by ring. rewrite Rabs_mult, (Rabs_pos_eq (sqrt _)) by apply sqrt_pos. apply Rmult_le_compat_r; [apply sqrt_pos|lra].
Qed.
Definition tr (g : nat -> nat -> f32) : f32 := qf_trace (g 0%nat 0%nat) (g 1%nat 1%nat) (g 2%nat 2%nat).
Definition rp (g : nat -> nat -> f32) (i j k : nat) : f32 := qf_scale (qf_root (g i i) (g j j) (g k k)).
Definition set_w rt (g : nat -> nat -> f32) : dquat := let s := qf_scale (rt (tr g)) in
  (mul (sub (g 2%nat 1%nat) (g 1%nat 2%nat)) s, mul (sub (g 0%nat 2%nat) (g 2%nat 0%nat)) s, mul (sub (g 1%nat 0%nat) (g 0%nat 1%nat)) s, qf_quarter s).
Definition set_x (g : nat -> nat -> f32) : dquat := let s := rp g 0%nat 1%nat 2%nat in
  (qf_quarter s, mul (add (g 0%nat 1%nat) (g 1%nat 0%nat)) s, mul (add (g 0%nat 2%nat) (g 2%nat 0%nat)) s, mul (sub (g 1%nat 2%nat) (g 2%nat 1%nat)) s).
Definition set_y (g : nat -> nat -> f32) : dquat := let s := rp g 1%nat 0%nat 2%nat in
  (mul (add (g 0%nat 1%nat) (g 1%nat 0%nat)) s, qf_quarter s, mul (add (g 1%nat 2%nat) (g 2%nat 1%nat)) s, mul (sub (g 0%nat 2%nat) (g 2%nat 0%nat)) s).
Definition set_z (g : nat -> nat -> f32) : dquat := let s := rp g 2%nat 0%nat 1%nat in
  (mul (add (g 0%nat 2%nat) (g 2%nat 0%nat)) s, mul (add (g 1%nat 2%nat) (g 2%nat 1%nat)) s, qf_quarter s, mul (sub (g 0%nat 1%nat) (g 1%nat 0%nat)) s).
Lemma set_run {cfg : Cfg} rt D m g (q0 : dquat) : (3 <= D)%nat -> repM D D m g -> qf_set_matrix rt D (arr q0) m =
  if InstF.Bltb PQSet.f64_trace_eps (wd (tr g)) then Ok (arr (set_w rt g)) else
  k <- vec_find_max_index [g 0%nat 0%nat; g 1%nat 1%nat; g 2%nat 2%nat] ;;
  if (k =? 0)%nat then Ok (arr (set_x g)) else if (k =? 1)%nat then Ok (arr (set_y g)) else if (k =? 2)%nat then Ok (arr (set_z g)) else UB.
Proof.
  intros HD Hm. unfold qf_set_matrix. rewrite !(mat_at_ok D D m g _ _ Hm) by lia. cbn [bind]. cbv zeta. rewrite PQSet.lit_trace_eps. fold (tr g).
  destruct q0 as [[[a b] c] d]. destruct (InstF.Bltb PQSet.f64_trace_eps _); [reflexivity|]. destruct (vec_find_max_index _) as [k| | |]; cbn [bind]; [|reflexivity..].
  destruct (k =? 0)%nat; [reflexivity|]. destruct (k =? 1)%nat; [reflexivity|]. destruct (k =? 2)%nat; reflexivity.
Qed.

(** ** The cells *)
Section Cells.
Context (x y z w e : R) (g : nat -> nat -> f32).
Let q : Quat := (x, y, z, w).
Hypotheses (Hq : x * x + y * y + z * z + w * w = 1) (He : 0 <= e)
  (Hg : forall i j, (i < 3)%nat -> (j < 3)%nat -> fin (g i j) /\ Rabs (val (g i j) - rotcell q i j) <= e).
Let E : R := e + 4 * uro.
Lemma cells i j : (i < 3)%nat -> (j < 3)%nat -> cell e (g i j) (rotcell q i j).
Proof. intros Hi Hj. destruct (Hg i j Hi Hj) as (F & D). split; [exact F|]. split; [|exact D]. apply PQSet.rotcell_le; [exact Hi|exact Hj|exact Hq]. Qed.
Lemma wcells i j : (i < 3)%nat -> (j < 3)%nat -> PQSet.cell e (wd (g i j)) (rotcell q i j).
Proof. intros Hi Hj. destruct (cells i j Hi Hj) as (F & B & D). destruct (wid _ F) as (Fw & Vw). split; [exact Fw|]. split; [exact B|]. rewrite Vw. exact D. Qed.
Definition nearby (r : dquat) (t : Quat) (b : R) : Prop := qeach fin r /\ exists s, (s = 1 \/ s = -1) /\ qnear r (qscaleR s t) b.
Ltac rot := unfold q; cbn [rotcell]; first [ring | rewrite <- Hq; ring].
Lemma trace_near : e <= / 100 -> fin (tr g) /\ Rabs (val (tr g) - 4 * (w * w)) <= 3 * E.
Proof.
  intros ES. destruct (trace_sum e _ _ _ _ _ _ (conj He ES) (cells 0%nat 0%nat ltac:(lia) ltac:(lia)) (cells 1%nat 1%nat ltac:(lia) ltac:(lia)) (cells 2%nat 2%nat ltac:(lia) ltac:(lia))) as (FT & DT).
  destruct (trace_float _ _ _ FT) as (F & V). split; [exact F|]. unfold tr. rewrite V. replace (4 * (w * w)) with (rotcell q 0%nat 0%nat + rotcell q 1%nat 1%nat + rotcell q 2%nat 2%nat + 1) by rot. unfold E. lra.
Qed.
Lemma near_w rt : root_ok rt -> E <= w * w / 100 -> nearby (set_w rt g) (x, y, z, w) (2 * E / (w * w)).
Proof.
  intros Hrt HE. pose proof uro_pos as UP. destruct (PQSet.le1 x y z w Hq) as (Lx & Ly & Lz & Lw). destruct (PQSet.sgn w) as (s & Hs & W1 & W2). pose proof (PQSet.sqa w) as W3.
  assert (E0 : 0 < E) by (unfold E; lra). assert (V1 : Rabs w * Rabs w <= 1 * 1) by (apply Rmult_le_compat; try apply Rabs_pos; assumption). assert (ES : 0 <= e <= / 100) by (unfold E in HE; lra).
  destruct (trace_near (proj2 ES)) as (FT & PT). rewrite <- W3 in HE, PT |- *.
  assert (A0 : 0 < Rabs w <= 1). { split; [|exact Lw]. pose proof (Rabs_pos w). destruct (Req_dec (Rabs w) 0) as [Z|Z]; [rewrite Z in HE; lra|lra]. }
  assert (TL : bp (-100) <= val (tr g)). { apply abs_le_inv in PT. apply Rle_trans with (350 * (4 * uro)); [|unfold E in *; lra]. rewrite uro_val. apply Rle_trans with (bp (-20)); [apply bpow_le; lia|cbn; lra]. }
  destruct (root_near rt (tr g) Hrt FT TL) as (FR & DR).
  destruct (branch_main (Rabs w) E (val (tr g)) (rt (tr g)) A0 ltac:(unfold E; lra) HE PT DR) as (F4 & D4).
  pose proof (fun c b => branch_off (Rabs w) E (val (tr g)) (rt (tr g)) A0 ltac:(unfold E; lra) HE PT DR c b) as OFF.
  assert (G : forall i j (b : R), (i < 3)%nat -> (j < 3)%nat -> Rabs b <= 1 -> rotcell q i j - rotcell q j i = 4 * (w * b) ->
     fin (mul (sub (g i j) (g j i)) (qf_scale (rt (tr g)))) /\ Rabs (val (mul (sub (g i j) (g j i)) (qf_scale (rt (tr g)))) - s * b) <= 2 * E / (Rabs w * Rabs w)).
  { intros i j b Hi Hj Hb Hr. destruct (sub_two e _ _ _ _ ES (cells i j Hi Hj) (cells j i Hj Hi)) as (FC & DC).
    apply OFF; [apply PQSet.sgn_le; assumption|exact FC|]. replace (4 * Rabs w * (s * b)) with (rotcell q i j - rotcell q j i); [unfold E; lra|]. rewrite Hr. rewrite W1 at 1. ring. }
  destruct (G 2%nat 1%nat x ltac:(lia) ltac:(lia) Lx ltac:(unfold q; cbn [rotcell]; ring)) as (F1 & D1).
  destruct (G 0%nat 2%nat y ltac:(lia) ltac:(lia) Ly ltac:(unfold q; cbn [rotcell]; ring)) as (F2 & D2).
  destruct (G 1%nat 0%nat z ltac:(lia) ltac:(lia) Lz ltac:(unfold q; cbn [rotcell]; ring)) as (F3 & D3).
  split; [repeat split; assumption|]. exists s. split; [exact Hs|]. rewrite W2 in D4 at 1. repeat split; assumption.
Qed.
Lemma near_piv (v : R) (i j k : nat) : (i < 3)%nat -> (j < 3)%nat -> (k < 3)%nat -> Rabs v <= 1 -> 1 + rotcell q i i - rotcell q j j - rotcell q k k = 4 * (v * v) ->
  E <= v * v / 100 -> exists s, (s = 1 \/ s = -1) /\
  (fin (qf_quarter (rp g i j k)) /\ Rabs (val (qf_quarter (rp g i j k)) - s * v) <= 2 * E / (v * v)) /\
  (forall l n b, (l < 3)%nat -> (n < 3)%nat -> Rabs b <= 1 -> rotcell q l n + rotcell q n l = 4 * (v * b) ->
    fin (mul (add (g l n) (g n l)) (rp g i j k)) /\ Rabs (val (mul (add (g l n) (g n l)) (rp g i j k)) - s * b) <= 2 * E / (v * v)) /\
  (forall l n b, (l < 3)%nat -> (n < 3)%nat -> Rabs b <= 1 -> rotcell q l n - rotcell q n l = 4 * (v * b) ->
    fin (mul (sub (g l n) (g n l)) (rp g i j k)) /\ Rabs (val (mul (sub (g l n) (g n l)) (rp g i j k)) - s * b) <= 2 * E / (v * v)).
Proof.
  intros Hi Hj Hk Lv HV HE. pose proof uro_pos as UP. pose proof u64_small as U6. destruct (PQSet.sgn v) as (s & Hs & W1 & W2). pose proof (PQSet.sqa v) as W3. rewrite <- W3 in HE |- *.
  assert (E0 : 0 < E) by (unfold E; lra). assert (V1 : Rabs v * Rabs v <= 1 * 1) by (apply Rmult_le_compat; try apply Rabs_pos; assumption). assert (ES : 0 <= e <= / 100) by (unfold E in HE; lra).
  assert (A0 : 0 < Rabs v <= 1). { split; [|exact Lv]. pose proof (Rabs_pos v). destruct (Req_dec (Rabs v) 0) as [Z|Z]; [rewrite Z in HE; lra|lra]. }
  destruct (PQSet.pivot_sum e _ _ _ _ _ _ ES (wcells i i Hi Hi) (wcells j j Hj Hj) (wcells k k Hk Hk)) as (FT & DT).
  set (p := b64_minus mode_NE (b64_minus mode_NE (b64_plus mode_NE f64_one (wd (g i i))) (wd (g j j))) (wd (g k k))) in *.
  assert (PT : Rabs (v64 p - 4 * (Rabs v * Rabs v)) <= 3 * E) by (rewrite W3, <- HV; unfold E; lra).
  assert (TL : bp (-100) <= v64 p). { apply abs_le_inv in PT. apply Rle_trans with (350 * (4 * uro)); [|unfold E in *; lra]. rewrite uro_val. apply Rle_trans with (bp (-20)); [apply bpow_le; lia|cbn; lra]. }
  pose proof (bpow_gt_0 radix2 (-100)) as B100. destruct (LFloat.sqrt_fin p FT ltac:(lra)) as (FR & ER).
  assert (DR : Rabs (v64 (b64_sqrt mode_NE p) - sqrt (v64 p)) <= 1001 / 1000 * uro * sqrt (v64 p)).
  { rewrite ER. destruct (LFloat.rnd_rel (sqrt (v64 p))) as (d & Hd & ->).
    { rewrite Rabs_pos_eq by apply sqrt_pos. apply Rsqr_incr_0_var; [|apply sqrt_pos]. unfold Rsqr. rewrite sqrt_sqrt by lra. rewrite <- bpow_plus. apply Rle_trans with (2 := TL). apply bpow_le. lia. }
    replace (sqrt (v64 p) * (1 + d) - sqrt (v64 p)) with (d * sqrt (v64 p)) by ring. rewrite Rabs_mult, (Rabs_pos_eq (sqrt _)) by apply sqrt_pos. apply Rmult_le_compat_r; [apply sqrt_pos|lra]. }
  destruct (branch_main (Rabs v) E (v64 p) (b64_sqrt mode_NE p) A0 ltac:(unfold E; lra) HE PT DR) as (F4 & D4).
  pose proof (fun c b => branch_off (Rabs v) E (v64 p) (b64_sqrt mode_NE p) A0 ltac:(unfold E; lra) HE PT DR c b) as OFF. change (qf_scale (b64_sqrt mode_NE p)) with (rp g i j k) in F4, D4, OFF.
  exists s. split; [exact Hs|]. split; [split; [exact F4|]; rewrite W2 in D4 at 1; exact D4|]. split.
  - intros l n b Hl Hn Hb Hr. destruct (add_two e _ _ _ _ ES (cells l n Hl Hn) (cells n l Hn Hl)) as (FC & DC).
    apply OFF; [apply PQSet.sgn_le; assumption|exact FC|]. replace (4 * Rabs v * (s * b)) with (rotcell q l n + rotcell q n l); [unfold E; lra|]. rewrite Hr. rewrite W1 at 1. ring.
  - intros l n b Hl Hn Hb Hr. destruct (sub_two e _ _ _ _ ES (cells l n Hl Hn) (cells n l Hn Hl)) as (FC & DC).
    apply OFF; [apply PQSet.sgn_le; assumption|exact FC|]. replace (4 * Rabs v * (s * b)) with (rotcell q l n - rotcell q n l); [unfold E; lra|]. rewrite Hr. rewrite W1 at 1. ring.
Qed.
Lemma near_x : E <= x * x / 100 -> nearby (set_x g) (x, y, z, - w) (2 * E / (x * x)).
Proof.
  intros HE. destruct (PQSet.le1 x y z w Hq) as (Lx & Ly & Lz & Lw). assert (Lw' : Rabs (- w) <= 1) by (rewrite Rabs_Ropp; exact Lw).
  destruct (near_piv x 0%nat 1%nat 2%nat ltac:(lia) ltac:(lia) ltac:(lia) Lx ltac:(rot) HE) as (s & Hs & (F1 & D1) & P & M).
  destruct (P 0%nat 1%nat y ltac:(lia) ltac:(lia) Ly ltac:(rot)) as (F2 & D2). destruct (P 0%nat 2%nat z ltac:(lia) ltac:(lia) Lz ltac:(rot)) as (F3 & D3).
  destruct (M 1%nat 2%nat (- w) ltac:(lia) ltac:(lia) Lw' ltac:(rot)) as (F4 & D4).
  split; [repeat split; assumption|]. exists s. split; [exact Hs|]. repeat split; assumption.
Qed.
Lemma near_y : E <= y * y / 100 -> nearby (set_y g) (x, y, z, w) (2 * E / (y * y)).
Proof.
  intros HE. destruct (PQSet.le1 x y z w Hq) as (Lx & Ly & Lz & Lw).
  destruct (near_piv y 1%nat 0%nat 2%nat ltac:(lia) ltac:(lia) ltac:(lia) Ly ltac:(rot) HE) as (s & Hs & (F1 & D1) & P & M).
  destruct (P 0%nat 1%nat x ltac:(lia) ltac:(lia) Lx ltac:(rot)) as (F2 & D2). destruct (P 1%nat 2%nat z ltac:(lia) ltac:(lia) Lz ltac:(rot)) as (F3 & D3).
  destruct (M 0%nat 2%nat w ltac:(lia) ltac:(lia) Lw ltac:(rot)) as (F4 & D4).
  split; [repeat split; assumption|]. exists s. split; [exact Hs|]. repeat split; assumption.
Qed.
Lemma near_z : E <= z * z / 100 -> nearby (set_z g) (x, y, z, - w) (2 * E / (z * z)).
Proof.
  intros HE. destruct (PQSet.le1 x y z w Hq) as (Lx & Ly & Lz & Lw). assert (Lw' : Rabs (- w) <= 1) by (rewrite Rabs_Ropp; exact Lw).
  destruct (near_piv z 2%nat 0%nat 1%nat ltac:(lia) ltac:(lia) ltac:(lia) Lz ltac:(rot) HE) as (s & Hs & (F1 & D1) & P & M).
  destruct (P 0%nat 2%nat x ltac:(lia) ltac:(lia) Lx ltac:(rot)) as (F2 & D2). destruct (P 1%nat 2%nat y ltac:(lia) ltac:(lia) Ly ltac:(rot)) as (F3 & D3).
  destruct (M 0%nat 1%nat (- w) ltac:(lia) ltac:(lia) Lw' ltac:(rot)) as (F4 & D4).
  split; [repeat split; assumption|]. exists s. split; [exact Hs|]. repeat split; assumption.
Qed.
End Cells.

(** C180.  m is a float matrix, of any size from 3 x 3 on, whose upper left
    block is within e of the matrix A of the rotation by the unit quaternion
    (x, y, z, w); the sign of a quaternion is not determined by its rotation. *)
Theorem C180_from_rotation_matrix :
  forall (cfg : Cfg) (rt : f32 -> f64) (D : nat) (m : list f32) (g : nat -> nat -> f32) (q0 : dquat) (A : nat -> nat -> R) (x y z w e : R),
  let q := (x, y, z, w) in
  root_ok rt -> (3 <= D)%nat -> repM D D m g -> qabsR q = 1 ->
  (forall v : V3, qpureR (mv3R A v) = qmulR (qmulR q (qpureR v)) (qconjR q)) ->
  (forall i j, (i < 3)%nat -> (j < 3)%nat -> fin (g i j) /\ Rabs (val (g i j) - A i j) <= e) -> 0 <= e ->
  e + 4 / 2 ^ 24 <= w * w / 100 ->
  exists r s, qf_set_matrix rt D (arr q0) m = Ok (arr r) /\ qeach fin r /\ (s = 1 \/ s = -1) /\
  qnear r (qscaleR s q) (2 * (e + 4 / 2 ^ 24) / (w * w)).
Proof.
  intros cfg rt D m g q0 A x y z w e q Hrt HD Hm H1 Ha Hg He HE.
  apply unit_dot in H1. cbn [qdotR q] in H1. pose proof (proj1 (acts_iff A q) Ha) as RC.
  assert (Hg' : forall i j, (i < 3)%nat -> (j < 3)%nat -> fin (g i j) /\ Rabs (val (g i j) - rotcell (x, y, z, w) i j) <= e) by (intros i j Hi Hj; destruct (Hg i j Hi Hj) as (F0 & D0); rewrite (RC i j Hi Hj) in D0; split; assumption).
  assert (UE : e + 4 / 2 ^ 24 = e + 4 * uro) by (rewrite uro_val; lra). rewrite UE in *. pose proof uro_pos as UP.
  assert (W1 : w * w <= 1) by nra.
  destruct (trace_near x y z w e g H1 He Hg' ltac:(lra)) as (FT & DT). apply abs_le_inv in DT. destruct (wid _ FT) as (FW & VW).
  pose proof PQSet.val_trace_eps as VE. apply abs_le_inv in VE.
  rewrite (set_run rt D m g q0 HD Hm). rewrite (proj2 (LErr.Bltb_fin PQSet.f64_trace_eps (wd (tr g)) eq_refl FW)) by (rewrite VW; lra).
  destruct (near_w x y z w e g H1 He Hg' rt Hrt HE) as (F & s & Hs & N). exists (set_w rt g), s. repeat (split; [first [reflexivity|assumption]|]). exact N.
Qed.
Print Assumptions C180_from_rotation_matrix.

(** Rotations by nearly a half turn: the quaternion comes out as q only if y is
    the largest component; otherwise w has the wrong sign (as in C61), so that
    the result is, up to its sign, the conjugate of q: the inverse rotation. *)
Theorem C180_half_turns :
  forall (cfg : Cfg) (rt : f32 -> f64) (D : nat) (m : list f32) (g : nat -> nat -> f32) (q0 : dquat) (A : nat -> nat -> R) (x y z w e : R),
  let q := (x, y, z, w) in
  root_ok rt -> (3 <= D)%nat -> repM D D m g -> qabsR q = 1 ->
  (forall v : V3, qpureR (mv3R A v) = qmulR (qmulR q (qpureR v)) (qconjR q)) ->
  (forall i j, (i < 3)%nat -> (j < 3)%nat -> fin (g i j) /\ Rabs (val (g i j) - A i j) <= e) -> 0 <= e <= / 1000000 ->
  4 * (w * w) <= 6 / 1000000 ->
  exists r s t, qf_set_matrix rt D (arr q0) m = Ok (arr r) /\ qeach fin r /\ (s = 1 \/ s = -1) /\ (t = 1 \/ t = -1) /\
  qnear r (qscaleR s (x, y, z, t * w)) (7 * (e + 4 / 2 ^ 24)) /\
  (x * x + e < y * y -> z * z + e < y * y -> t = 1) /\
  (y * y + e < x * x \/ y * y + e < z * z -> t = -1).
Proof.
  intros cfg rt D m g q0 A x y z w e q Hrt HD Hm H1 Ha Hg He Hw.
  apply unit_dot in H1. cbn [qdotR q] in H1. pose proof (proj1 (acts_iff A q) Ha) as RC.
  assert (Hg' : forall i j, (i < 3)%nat -> (j < 3)%nat -> fin (g i j) /\ Rabs (val (g i j) - rotcell (x, y, z, w) i j) <= e) by (intros i j Hi Hj; destruct (Hg i j Hi Hj) as (F0 & D0); rewrite (RC i j Hi Hj) in D0; split; assumption).
  assert (UE : e + 4 / 2 ^ 24 = e + 4 * uro) by (rewrite uro_val; lra). rewrite UE in *. pose proof uro_pos as UP. assert (US : uro <= / 16000000) by (rewrite uro_val; lra).
  destruct (trace_near x y z w e g H1 (proj1 He) Hg' ltac:(lra)) as (FT & DT). apply abs_le_inv in DT. destruct (wid _ FT) as (FW & VW).
  pose proof PQSet.val_trace_eps as VE. apply abs_le_inv in VE.
  rewrite (set_run rt D m g q0 HD Hm). rewrite (proj2 (LErr.Bltb_fin_false PQSet.f64_trace_eps (wd (tr g)) eq_refl FW)) by (rewrite VW; lra).
  destruct (Hg' 0%nat 0%nat ltac:(lia) ltac:(lia)) as (F0 & D0). destruct (Hg' 1%nat 1%nat ltac:(lia) ltac:(lia)) as (F1 & D1). destruct (Hg' 2%nat 2%nat ltac:(lia) ltac:(lia)) as (F2 & D2).
  cbn [rotcell] in D0, D1, D2. apply abs_le_inv in D0, D1, D2.
  destruct (max3 _ _ _ F0 F1 F2) as (k & -> & [(-> & K1 & K2)|[(-> & K1 & K2)|(-> & K1 & K2)]]); cbn [bind Nat.eqb].
  - assert (X : 33 / 100 <= x * x) by lra. destruct (near_x x y z w e g H1 (proj1 He) Hg' ltac:(lra)) as (F & s & Hs & N).
    exists (set_x g), s, (-1). split; [reflexivity|]. split; [exact F|]. split; [exact Hs|]. split; [right; reflexivity|]. split; [|split; [intros; lra|reflexivity]].
    replace (-1 * w) with (- w) by ring. set (E := e + 4 * uro) in *.
    assert (B : 2 * E / (x * x) <= 7 * E). { apply (Rmult_le_reg_r (x * x)); [lra|]. replace (2 * E / (x * x) * (x * x)) with (2 * E) by (field; nra). assert (0 <= E) by (unfold E; lra). nra. }
    destruct (set_x g) as [[[? ?] ?] ?]. cbn [qscaleR qnear] in *. repeat split; (eapply Rle_trans; [apply N|exact B]).
  - assert (X : 33 / 100 <= y * y) by lra. destruct (near_y x y z w e g H1 (proj1 He) Hg' ltac:(lra)) as (F & s & Hs & N).
    exists (set_y g), s, 1. split; [reflexivity|]. split; [exact F|]. split; [exact Hs|]. split; [left; reflexivity|]. split; [|split; [reflexivity|intros [?|?]; lra]].
    replace (1 * w) with w by ring. set (E := e + 4 * uro) in *.
    assert (B : 2 * E / (y * y) <= 7 * E). { apply (Rmult_le_reg_r (y * y)); [lra|]. replace (2 * E / (y * y) * (y * y)) with (2 * E) by (field; nra). assert (0 <= E) by (unfold E; lra). nra. }
    destruct (set_y g) as [[[? ?] ?] ?]. cbn [qscaleR qnear] in *. repeat split; (eapply Rle_trans; [apply N|exact B]).
  - assert (X : 33 / 100 <= z * z) by lra. destruct (near_z x y z w e g H1 (proj1 He) Hg' ltac:(lra)) as (F & s & Hs & N).
    exists (set_z g), s, (-1). split; [reflexivity|]. split; [exact F|]. split; [exact Hs|]. split; [right; reflexivity|]. split; [|split; [intros; lra|reflexivity]].
    replace (-1 * w) with (- w) by ring. set (E := e + 4 * uro) in *.
    assert (B : 2 * E / (z * z) <= 7 * E). { apply (Rmult_le_reg_r (z * z)); [lra|]. replace (2 * E / (z * z) * (z * z)) with (2 * E) by (field; nra). assert (0 <= E) by (unfold E; lra). nra. }
    destruct (set_z g) as [[[? ?] ?] ?]. cbn [qscaleR qnear] in *. repeat split; (eapply Rle_trans; [apply N|exact B]).
Qed.
Print Assumptions C180_half_turns.

(** From a quaternion of length 1 up to d to its rotation matrix and back. *)
Theorem C180_round_trip :
  forall (cfg : Cfg) (rt : f32 -> f64) (q q0 : dquat) (d : R), let '(_, _, _, w) := qv q in
  root_ok rt -> qeach fin q -> Rabs (qabsR (qv q) - 1) <= d -> d <= 1 / 1000 ->
  3 * d + 16 / 2 ^ 24 <= w * w / 200 ->
  exists m r s, qf_get_rotation_matrix (arr q) = Ok m /\ qf_set_matrix rt 3 (arr q0) m = Ok (arr r) /\ qeach fin r /\ (s = 1 \/ s = -1) /\
  qnear r (qscaleR s (qv q)) (2 * (3 * d + 16 / 2 ^ 24) / (w * w)).
Proof.
  intros cfg rt q q0 d. destruct (qv q) as [[[x y] z] w] eqn:EQ. intros Hrt Fq Hd Hd1 HM.
  apply abs_le_inv in Hd as Hd'. set (N := qabsR (x, y, z, w)) in *. pose proof uro_pos as UP. assert (US : uro <= / 16000000) by (rewrite uro_val; lra).
  assert (UE : 16 / 2 ^ 24 = 16 * uro) by (rewrite uro_val; lra). rewrite UE in *.
  assert (Sq : qeach sane q).
  { assert (P : bp 1 <= 2 ^ 60) by (assert (2 ^ 1 <= 2 ^ 60) by (apply Rle_pow; [lra|lia]); change (bp 1) with 2; lra).
    assert (QN : qabsR (qv q) <= bp 1) by (rewrite EQ; fold N; change (bp 1) with 2; lra).
    pose proof (qeach_okf q 1 Fq QN) as O. destruct q as [[[a b] c] f]. destruct O as ((? & A) & (? & B) & (? & C) & (? & G)).
    repeat split; try assumption; lra. }
  destruct (C169_rotation_matrix_error cfg q Sq) as (m & g & EM & Hm & A & HA & HG). rewrite EQ in HA, HG. fold N in HG.
  pose proof (proj1 (acts_iff A (x, y, z, w)) HA) as RC.
  set (t := qscaleR (/ N) (x, y, z, w)).
  assert (NN : N * N = x * x + y * y + z * z + w * w) by (unfold N; rewrite qabs_sq; reflexivity).
  assert (IN : / N * N = 1) by (field; lra).
  assert (UT : qabsR t = 1).
  { unfold qabsR. replace (qdotR t t) with 1; [apply sqrt_1|]. unfold t. cbn [qscaleR qdotR].
    replace 1 with ((/ N * N) * (/ N * N)) by (rewrite IN; ring). replace (/ N * N * (/ N * N)) with (/ N * / N * (N * N)) by ring. rewrite NN. ring. }
  assert (WT : / N * w * (/ N * w) = w * w / (N * N)) by (field; lra).
  assert (N2 : 997 / 1000 <= N * N <= 1003 / 1000) by (split; nra).
  assert (WL : w * w * (996 / 1000) <= w * w / (N * N)).
  { apply (Rmult_le_reg_r (N * N)); [lra|]. replace (w * w / (N * N) * (N * N)) with (w * w) by (field; lra). assert (0 <= w * w) by nra. nra. }
  pose proof eta_small as ES.
  assert (D0 : 0 <= d) by (pose proof (Rabs_pos (N - 1)); lra).
  set (e := 201 / 100 * d + 7 * uro).
  assert (HG' : forall i j, (i < 3)%nat -> (j < 3)%nat -> fin (g i j) /\ Rabs (val (g i j) - rotcell t i j) <= e).
  { intros i j Hi Hj. destruct (HG i j Hi Hj) as (F & G). split; [exact F|]. rewrite (RC i j Hi Hj) in G.
    assert (RT : rotcell (x, y, z, w) i j = N * N * rotcell t i j).
    { unfold t. rewrite PQSet.rotcell_scale by assumption. replace (N * N * (/ N * / N * rotcell (x, y, z, w) i j)) with ((/ N * N) * (/ N * N) * rotcell (x, y, z, w) i j) by ring. rewrite IN. ring. }
    pose proof (PQSet.rotcell_le t i j Hi Hj (unit_dot t UT)) as L1. rewrite RT in G.
    assert (G1 : Rabs (N * N * rotcell t i j - rotcell t i j) <= 201 / 100 * d).
    { replace (N * N * rotcell t i j - rotcell t i j) with ((N * N - 1) * rotcell t i j) by ring. rewrite Rabs_mult, <- (Rmult_1_r (201 / 100 * d)).
      apply Rmult_le_compat; try apply Rabs_pos; [|exact L1]. replace (N * N - 1) with ((N - 1) * (N + 1)) by ring. rewrite Rabs_mult, (Rabs_pos_eq (N + 1)) by lra.
      rewrite Rmult_comm. apply Rmult_le_compat; try apply Rabs_pos; lra. }
    assert (G2 : 5 / 2 ^ 24 * (N * N) + 8 / 2 ^ 150 <= 7 * uro).
    { replace (8 / 2 ^ 150) with (8 * eta) by (unfold eta; field; apply pow_nonzero; lra). replace (5 / 2 ^ 24) with (5 * uro) by (rewrite uro_val; lra). nra. }
    replace (val (g i j) - rotcell t i j) with ((val (g i j) - N * N * rotcell t i j) + (N * N * rotcell t i j - rotcell t i j)) by ring.
    eapply Rle_trans; [apply Rabs_triang|]. unfold e. lra. }
  assert (UE4 : e + 4 / 2 ^ 24 = e + 4 * uro) by (rewrite uro_val; lra).
  destruct (C180_from_rotation_matrix cfg rt 3 m g q0 (rotcell t) (/ N * x) (/ N * y) (/ N * z) (/ N * w) e) as (r & s & E1 & E2 & Hs & E4); try assumption.
  - lia.
  - apply acts_iff. reflexivity.
  - unfold e. lra.
  - rewrite WT, UE4. unfold e. lra.
  - exists m, r, s. split; [exact EM|]. split; [exact E1|]. split; [exact E2|]. split; [exact Hs|].
    rewrite UE4, WT in E4.
    assert (W0 : 0 < w * w <= 1003 / 1000) by (split; [lra|nra]).
    assert (W1 : w <> 0) by nra.
    assert (B : 2 * (e + 4 * uro) / (w * w / (N * N)) + d <= 2 * (3 * d + 16 * uro) / (w * w)).
    { apply (Rmult_le_reg_r (w * w)); [lra|]. replace (2 * (3 * d + 16 * uro) / (w * w) * (w * w)) with (2 * (3 * d + 16 * uro)) by (field; repeat split; first [exact W1|lra]).
      replace ((2 * (e + 4 * uro) / (w * w / (N * N)) + d) * (w * w)) with (2 * (e + 4 * uro) * (N * N) + d * (w * w)) by (field; repeat split; first [exact W1|lra]).
      assert (2 * (e + 4 * uro) * (N * N) <= 2 * (e + 4 * uro) * (1003 / 1000)) by (apply Rmult_le_compat_l; [unfold e; lra|lra]).
      assert (d * (w * w) <= d * (1003 / 1000)) by (apply Rmult_le_compat_l; lra). unfold e in *. lra. }
    assert (C : forall (v : f32) (p : R), Rabs p <= N -> Rabs (val v - s * (/ N * p)) <= 2 * (e + 4 * uro) / (w * w / (N * N)) -> Rabs (val v - s * p) <= 2 * (3 * d + 16 * uro) / (w * w)).
    { intros v p Hp H. eapply Rle_trans; [|exact B]. replace (val v - s * p) with ((val v - s * (/ N * p)) + s * ((/ N * p) * (1 - N))) by (field; lra).
      eapply Rle_trans; [apply Rabs_triang|]. apply Rplus_le_compat; [exact H|].
      assert (AS : Rabs s = 1) by (destruct Hs as [->| ->]; [apply Rabs_R1|replace (-1) with (- (1)) by ring; rewrite Rabs_Ropp; apply Rabs_R1]).
      rewrite Rabs_mult, AS, Rmult_1_l, Rabs_mult, <- (Rmult_1_l d). apply Rmult_le_compat; try apply Rabs_pos.
      - rewrite Rabs_mult, (Rabs_pos_eq (/ N)) by (apply Rlt_le, Rinv_0_lt_compat; lra). rewrite <- IN. apply Rmult_le_compat_l; [apply Rlt_le, Rinv_0_lt_compat; lra|exact Hp].
      - rewrite Rabs_minus_sym. exact Hd. }
    destruct (comp_le (x, y, z, w)) as (C1 & C2 & C3 & C4). fold N in C1, C2, C3, C4.
    destruct r as [[[r1 r2] r3] r4]. destruct E4 as (T1 & T2 & T3 & T4). cbn [qscaleR qnear]. repeat split; (apply C; assumption).
Qed.
Print Assumptions C180_round_trip.

(** ** The hypotheses can be met: by the rounded rotation matrix of any unit
    quaternion, e.g. (1/2, 1/2, 1/2, 1/2) and (sqrt( 1 - 10^-6 ), 0, 0, 1/1000). *)
Definition rounded (q : Quat) (i j : nat) : f32 := grid (rotcell q i j).
Lemma rounded_ok q : qabsR q = 1 -> exists m, repM 3 3 m (rounded q) /\
  (forall v : V3, qpureR (mv3R (rotcell q) v) = qmulR (qmulR q (qpureR v)) (qconjR q)) /\
  (forall i j, (i < 3)%nat -> (j < 3)%nat -> fin (rounded q i j) /\ Rabs (val (rounded q i j) - rotcell q i j) <= / 2 ^ 23).
Proof.
  intros Hq. set (g := rounded q).
  exists [g 0 0; g 1 0; g 2 0; g 0 1; g 1 1; g 2 1; g 0 2; g 1 2; g 2 2]%nat. split; [|split].
  - split; [reflexivity|]. intros i j Hi Hj. destruct i as [|[|[|i]]]; try lia; destruct j as [|[|[|j]]]; try lia; reflexivity.
  - apply acts_iff. reflexivity.
  - intros i j Hi Hj. apply grid_ok, PQSet.rotcell_le; [exact Hi|exact Hj|apply unit_dot; exact Hq].
Qed.
Example C180_hypotheses_met :
  (let w := / 2 in qabsR (/ 2, / 2, / 2, w) = 1 /\ / 2 ^ 23 + 4 / 2 ^ 24 <= w * w / 100) /\
  (let w := / 1000 in let x := sqrt (1 - w * w) in qabsR (x, 0, 0, w) = 1 /\ 4 * (w * w) <= 6 / 1000000 /\ / 2 ^ 23 <= / 1000000 /\ 0 * 0 + / 2 ^ 23 < x * x) /\
  (qeach fin q_halves /\ qabsR (qv q_halves) = 1 /\ 3 * 0 + 16 / 2 ^ 24 <= / 2 * / 2 / 200).
Proof.
  assert (S1 : sqrt (1 - / 1000 * / 1000) * sqrt (1 - / 1000 * / 1000) = 1 - / 1000 * / 1000) by (apply sqrt_sqrt; lra).
  cbv zeta. repeat split; try reflexivity; try lra; try apply halves_unit.
  - unfold qabsR. cbn [qdotR]. replace (_ + _) with 1 by lra. apply sqrt_1.
  - unfold qabsR. cbn [qdotR]. rewrite S1. replace (_ + _) with 1 by lra. apply sqrt_1.
Qed.
