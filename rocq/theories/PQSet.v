(** Property C179: a double quaternion from an inexact rotation matrix. *)
From Coq Require Import ZArith Reals Lra Psatz List.
From Flocq Require Import Core.Core IEEE754.BinarySingleNaN IEEE754.Binary IEEE754.Bits.
From Verif Require Import InstF LVector MVector LMatrix MMatrix LSum MQuaternion MLit Spec Spec3 PQuaternion PFloat LFloat PFloat2 LErr PCuller3 PQuatF LRot LQSet PQrF PRotF.
Import ListNotations.
Local Open Scope R_scope.
Local Existing Instance F64Scalar.
Local Notation bp := (bpow radix2).
Local Notation mul := (b64_mult mode_NE).
Local Notation add := (b64_plus mode_NE).
Local Notation sub := (b64_minus mode_NE).
Local Notation div := (b64_div mode_NE).
Local Notation rnd := (round radix2 (FLT_exp (-1074) 53) (Znearest (fun x => negb (Z.even x)))).

(** ** The literals *)
Definition f64_quarter : f64 := b64_of_bits 0x3FD0000000000000.
Definition f64_trace_eps : f64 := b64_of_bits 0x3EE4F8B588E368F1.
Lemma lit_quarter : slit 1 4 = f64_quarter.
Proof. apply LF64.bits_inj. vm_compute. reflexivity. Qed.
Lemma lit_trace_eps : slit 1 100000 = f64_trace_eps.
Proof. apply LF64.bits_inj. vm_compute. reflexivity. Qed.
Lemma val_quarter : val f64_quarter = / 4.
Proof. unfold val. assert (E : B2FF 53 1024 f64_quarter = F754_finite false 4503599627370496 (-54)) by reflexivity.
  destruct f64_quarter as [s|s|s p0 H0|s m e H]; try discriminate E. injection E as -> -> ->. cbn. unfold F2R. cbn. lra. Qed.
Lemma val_trace_eps : Rabs (val f64_trace_eps - 1 / 100000) <= / 1000000000000.
Proof. unfold val. assert (E : B2FF 53 1024 f64_trace_eps = F754_finite false 5902958103587057 (-69)) by reflexivity.
  destruct f64_trace_eps as [s|s|s p0 H0|s m e H]; try discriminate E. injection E as -> -> ->. cbn. unfold F2R. cbn. apply Rabs_le. lra. Qed.

Lemma eta_small : 0 < eta <= uro / 100.
Proof. split; [apply eta_pos|]. rewrite <- eta_bpow, uro_val. apply Rle_trans with (bp (-100)); [|cbn; lra]. pose proof (bpow_ge_0 radix2 (-1074)). apply Rle_trans with (bp (-1074)); [lra|apply bpow_le; lia]. Qed.

(** ** One branch: the square root, the two divisions and the products *)
Section Branch.
Context (a E : R) (p : f64).
Hypotheses (Ha : 0 < a <= 1) (HU : 4 * uro <= E) (HE : E <= a * a / 100) (Fp : fin p) (Hp : Rabs (val p - 4 * (a * a)) <= 3 * E).
Let s : f64 := div f64_half (b64_sqrt mode_NE p).
Lemma branch_s : fin s /\ Rabs (4 * a * val s - 1) <= E / (a * a) /\ bp (-10) <= val s <= bp 30.
Proof.
  pose proof uro_pos as UP. pose proof uro_val as UV. assert (HE0 : 0 <= E <= a * a / 100) by lra.
  apply abs_le_inv in Hp as Hp'. assert (A2 : 400 * uro <= a * a <= 1) by nra. assert (P0 : 0 < val p) by lra.
  assert (AL : bp (-23) <= a). { apply Rsqr_incr_0_var; [|lra]. unfold Rsqr. rewrite <- bpow_plus. apply Rle_trans with (400 * uro); [rewrite UV; cbn; lra|lra]. }
  destruct (sqrt_fin p Fp P0) as (Fr & Er).
  assert (SL : bp (-22) <= sqrt (val p) <= bp 2).
  { split.
    - apply Rsqr_incr_0_var; [|apply sqrt_pos]. unfold Rsqr. rewrite sqrt_sqrt by lra. rewrite <- bpow_plus. apply Rle_trans with (350 / 100 * (400 * uro)); [rewrite UV; cbn; lra|lra].
    - apply Rsqr_incr_0_var; [|apply bpow_ge_0]. unfold Rsqr. rewrite sqrt_sqrt by lra. change (bp 2) with 4. lra. }
  destruct (rnd_rel (sqrt (val p))) as (d1 & Hd1 & E1). { rewrite Rabs_pos_eq by apply sqrt_pos. apply Rle_trans with (2 := proj1 SL). apply bpow_le. lia. }
  rewrite E1 in Er. set (q := sqrt (val p)) in *. pose proof (bpow_gt_0 radix2 (-22)) as B22.
  assert (U1 : uro <= / 1000000) by (rewrite UV; lra). apply abs_le_inv in Hd1 as D1.
  assert (RP : 0 < val (b64_sqrt mode_NE p)) by (rewrite Er; apply Rmult_lt_0_compat; lra).
  assert (VH : val f64_half / val (b64_sqrt mode_NE p) = / 2 / q * / (1 + d1)) by (rewrite val_half, Er; field; lra).
  assert (I1 : 99 / 100 <= / (1 + d1) <= 101 / 100).
  { split; [apply (Rmult_le_reg_r (1 + d1)); [lra|]; rewrite Rinv_l by lra; lra|apply (Rmult_le_reg_r (1 + d1)); [lra|]; rewrite Rinv_l by lra; lra]. }
  assert (IQ : bp (-2) <= / q <= bp 22). { split; [change (-2)%Z with (Z.opp 2); rewrite bpow_opp; apply Rinv_le; lra|change 22%Z with (Z.opp (-22)); rewrite bpow_opp; apply Rinv_le; lra]. }
  set (h := / 2 / q * / (1 + d1)) in *.
  assert (HH : bp (-9) <= h <= bp 29).
  { unfold h. split; [apply Rle_trans with (/ 2 * bp (-2) * (99 / 100)); [cbn; lra|]|apply Rle_trans with (/ 2 * bp 22 * (101 / 100)); [|cbn; lra]];
      (apply Rmult_le_compat; [| |unfold Rdiv; apply Rmult_le_compat_l; lra|lra]); pose proof (bpow_ge_0 radix2 (-2)); unfold Rdiv; try apply Rmult_le_pos; lra. }
  pose proof (bpow_gt_0 radix2 (-9)) as B9.
  assert (AH : Rabs h <= bp 29) by (rewrite Rabs_pos_eq; lra).
  destruct (div_fin f64_half (b64_sqrt mode_NE p) ltac:(reflexivity) ltac:(lra)) as (Fs & Es).
  { rewrite VH. eapply Rle_lt_trans; [apply (rnd_le _ 29 ltac:(lia) AH)|]. apply bpow_lt. lia. }
  fold s in Fs, Es. split; [exact Fs|].
  rewrite VH in Es. destruct (rnd_rel h) as (d2 & Hd2 & E2). { rewrite Rabs_pos_eq by lra. apply Rle_trans with (2 := proj1 HH). apply bpow_le. lia. }
  rewrite E2 in Es. apply abs_le_inv in Hd2 as D2. split.
  - apply (core_S a (val p) (val s) (201 / 100 * uro) E); try assumption; try lra. fold q.
    assert (Q0 : 0 < / 2 / q) by (apply Rmult_lt_0_compat; [lra|apply Rinv_0_lt_compat; lra]).
    replace (val s - / 2 / q) with (((1 + d2) / (1 + d1) - 1) * (/ 2 / q)) by (rewrite Es; unfold h; field; lra).
    rewrite Rabs_mult, (Rabs_pos_eq (/ 2 / q)) by lra. apply Rmult_le_compat_r; [lra|].
    replace ((1 + d2) / (1 + d1) - 1) with ((d2 - d1) * / (1 + d1)) by (field; lra).
    assert (I2 : / (1 + d1) <= 1001 / 1000) by (apply (Rmult_le_reg_r (1 + d1)); [lra|]; rewrite Rinv_l by lra; lra).
    rewrite Rabs_mult, (Rabs_pos_eq (/ (1 + d1))) by lra. apply Rle_trans with (2 * uro * (1001 / 1000)); [|lra].
    apply Rmult_le_compat; [apply Rabs_pos|lra|apply Rabs_le; lra|exact I2].
  - rewrite Es. change (bp (-10)) with (bp (-9 + -1)). change (bp 30) with (bp (29 + 1)). rewrite !bpow_plus. change (bp (-1)) with (/ 2). change (bp 1) with 2.
    split; [apply Rmult_le_compat; lra|apply Rmult_le_compat; lra].
Qed.
Lemma branch_main : fin (div f64_quarter s) /\ Rabs (val (div f64_quarter s) - a) <= 2 * E / (a * a).
Proof.
  pose proof uro_pos as UP. destruct branch_s as (Fs & Hs & Bs). pose proof (bpow_gt_0 radix2 (-10)) as B10. pose proof eta_small as ET.
  assert (Q : Rabs (val f64_quarter / val s) <= bp 10).
  { rewrite val_quarter. unfold Rdiv. rewrite Rabs_pos_eq by (apply Rmult_le_pos; [lra|apply Rlt_le, Rinv_0_lt_compat; lra]).
    apply Rle_trans with (1 * / val s); [apply Rmult_le_compat_r; [apply Rlt_le, Rinv_0_lt_compat; lra|lra]|]. rewrite Rmult_1_l.
    change 10%Z with (Z.opp (-10)). rewrite bpow_opp. apply Rinv_le; [exact B10|apply Bs]. }
  destruct (div_fin f64_quarter s ltac:(reflexivity) ltac:(lra)) as (F & V). { eapply Rle_lt_trans; [apply (rnd_le _ 10 ltac:(lia) Q)|]. apply bpow_lt. lia. }
  split; [exact F|]. destruct (rnd_error (val f64_quarter / val s)) as (d & n & Hd & Hn & R). rewrite R, val_quarter in V.
  apply (core_main a (val s) E _ d n Ha ltac:(lra) Hs); [lra|lra|exact V].
Qed.
Lemma branch_off (c : f64) (b : R) : Rabs b <= 1 -> fin c -> Rabs (val c - 4 * a * b) <= 2 * E -> fin (mul c s) /\ Rabs (val (mul c s) - b) <= 2 * E / (a * a).
Proof.
  intros Hb Fc Hc. pose proof uro_pos as UP. destruct branch_s as (Fs & Hs & Bs). pose proof (bpow_gt_0 radix2 (-10)) as B10. pose proof eta_small as ET.
  assert (CB : Rabs (val c) <= bp 3).
  { apply abs_le_inv in Hc, Hb. change (bp 3) with 8. assert (a * a <= 1) by nra. assert (- 1 <= a * b <= 1) by nra. apply Rabs_le. lra. }
  assert (SB : okf 30 s) by (split; [exact Fs|rewrite Rabs_pos_eq by lra; apply Bs]).
  destruct (okf_mult 3 30 33 c s (conj Fc CB) SB eq_refl ltac:(lia)) as ((F & _) & _). split; [exact F|].
  destruct (mult_fin c s Fc Fs) as (_ & V). { destruct (okf_mult 3 30 33 c s (conj Fc CB) SB eq_refl ltac:(lia)) as (_ & _).
    assert (P : Rabs (val c * val s) <= bp 33) by (rewrite Rabs_mult; change 33%Z with (3 + 30)%Z; rewrite bpow_plus; apply Rmult_le_compat; try apply Rabs_pos; [exact CB|apply SB]).
    eapply Rle_lt_trans; [apply (rnd_le _ 33 ltac:(lia) P)|]. apply bpow_lt. lia. }
  destruct (mult_error (val c) (val s)) as (d & n & Hd & Hn & R). rewrite R in V.
  apply (core_off a b (val s) E (val c) _ d n Ha ltac:(lra) Hs Hb Hc); [lra|lra|exact V].
Qed.
End Branch.

(** ** The sums *)
Definition cell (e : R) (x : f64) (X : R) : Prop := fin x /\ Rabs X <= 1 /\ Rabs (val x - X) <= e.
Lemma cell_okf e x X : 0 <= e <= / 100 -> cell e x X -> okf 1 x.
Proof. intros He (F & B & D). split; [exact F|]. apply abs_le_inv in B, D. change (bp 1) with 2. apply Rabs_le. lra. Qed.
Lemma one_okf : okf 1 f64_one.
Proof. apply (okf_const _ 1); [reflexivity|exact val_one|]. rewrite Rabs_R1. change (bp 1) with 2. lra. Qed.
Lemma u_times x b : Rabs x <= b -> uro * Rabs x <= uro * b.
Proof. intros H. apply Rmult_le_compat_l; [pose proof uro_pos; lra|exact H]. Qed.
Lemma add_two e x1 x2 X1 X2 : 0 <= e <= / 100 -> cell e x1 X1 -> cell e x2 X2 -> fin (add x1 x2) /\ Rabs (val (add x1 x2) - (X1 + X2)) <= 2 * e + 3 * uro.
Proof.
  intros He C1 C2. destruct (okf_plus 1 2 x1 x2 (cell_okf e x1 X1 He C1) (cell_okf e x2 X2 He C2) eq_refl ltac:(lia)) as ((F & _) & D). split; [exact F|].
  destruct C1 as (_ & B1 & D1), C2 as (_ & B2 & D2). apply abs_le_inv in B1, B2, D1, D2. pose proof (u_times (val x1 + val x2) 3 ltac:(apply Rabs_le; lra)) as U. pose proof uro_pos.
  assert (D' : Rabs (val (add x1 x2) - (val x1 + val x2)) <= 3 * uro) by lra. apply abs_le_inv in D'. apply Rabs_le. lra.
Qed.
Lemma sub_two e x1 x2 X1 X2 : 0 <= e <= / 100 -> cell e x1 X1 -> cell e x2 X2 -> fin (sub x1 x2) /\ Rabs (val (sub x1 x2) - (X1 - X2)) <= 2 * e + 3 * uro.
Proof.
  intros He C1 C2. destruct (okf_minus 1 2 x1 x2 (cell_okf e x1 X1 He C1) (cell_okf e x2 X2 He C2) eq_refl ltac:(lia)) as ((F & _) & D). split; [exact F|].
  destruct C1 as (_ & B1 & D1), C2 as (_ & B2 & D2). apply abs_le_inv in B1, B2, D1, D2. pose proof (u_times (val x1 - val x2) 3 ltac:(apply Rabs_le; lra)) as U. pose proof uro_pos.
  assert (D' : Rabs (val (sub x1 x2) - (val x1 - val x2)) <= 3 * uro) by lra. apply abs_le_inv in D'. apply Rabs_le. lra.
Qed.
Lemma trace_sum e x1 x2 x3 X1 X2 X3 : 0 <= e <= / 100 -> cell e x1 X1 -> cell e x2 X2 -> cell e x3 X3 ->
  fin (add (add (add x1 x2) x3) f64_one) /\ Rabs (val (add (add (add x1 x2) x3) f64_one) - (X1 + X2 + X3 + 1)) <= 3 * e + 12 * uro.
Proof.
  intros He C1 C2 C3. pose proof uro_pos as UP. assert (U1 : uro <= / 1000000) by (rewrite uro_val; lra).
  destruct (okf_plus 1 2 x1 x2 (cell_okf e x1 X1 He C1) (cell_okf e x2 X2 He C2) eq_refl ltac:(lia)) as (O1 & D1).
  destruct (okf_plus 2 3 _ x3 O1 (okf_le 1 2 x3 (cell_okf e x3 X3 He C3) ltac:(lia)) eq_refl ltac:(lia)) as (O2 & D2).
  destruct (okf_plus 3 4 _ f64_one O2 (okf_le 1 3 _ one_okf ltac:(lia)) eq_refl ltac:(lia)) as ((F & _) & D3). split; [exact F|]. rewrite val_one in D3.
  destruct C1 as (_ & B1 & E1), C2 as (_ & B2 & E2), C3 as (_ & B3 & E3). apply abs_le_inv in B1, B2, B3, E1, E2, E3.
  set (t1 := val (add x1 x2)) in *. set (t2 := val (add (add x1 x2) x3)) in *. set (t3 := val (add (add (add x1 x2) x3) f64_one)) in *.
  pose proof (u_times (val x1 + val x2) (203 / 100) ltac:(apply Rabs_le; lra)) as M1. assert (D1' : Rabs (t1 - (val x1 + val x2)) <= 203 / 100 * uro) by lra. apply abs_le_inv in D1'.
  pose proof (u_times (t1 + val x3) (305 / 100) ltac:(apply Rabs_le; lra)) as M2. assert (D2' : Rabs (t2 - (t1 + val x3)) <= 305 / 100 * uro) by lra. apply abs_le_inv in D2'.
  pose proof (u_times (t2 + 1) (406 / 100) ltac:(apply Rabs_le; lra)) as M3. assert (D3' : Rabs (t3 - (t2 + 1)) <= 406 / 100 * uro) by lra. apply abs_le_inv in D3'.
  apply Rabs_le. lra.
Qed.
Lemma pivot_sum e x1 x2 x3 X1 X2 X3 : 0 <= e <= / 100 -> cell e x1 X1 -> cell e x2 X2 -> cell e x3 X3 ->
  fin (sub (sub (add f64_one x1) x2) x3) /\ Rabs (val (sub (sub (add f64_one x1) x2) x3) - (1 + X1 - X2 - X3)) <= 3 * e + 12 * uro.
Proof.
  intros He C1 C2 C3. pose proof uro_pos as UP. assert (U1 : uro <= / 1000000) by (rewrite uro_val; lra).
  destruct (okf_plus 1 2 f64_one x1 one_okf (cell_okf e x1 X1 He C1) eq_refl ltac:(lia)) as (O1 & D1).
  destruct (okf_minus 2 3 _ x2 O1 (okf_le 1 2 x2 (cell_okf e x2 X2 He C2) ltac:(lia)) eq_refl ltac:(lia)) as (O2 & D2).
  destruct (okf_minus 3 4 _ x3 O2 (okf_le 1 3 _ (cell_okf e x3 X3 He C3) ltac:(lia)) eq_refl ltac:(lia)) as ((F & _) & D3). split; [exact F|]. rewrite val_one in D1.
  destruct C1 as (_ & B1 & E1), C2 as (_ & B2 & E2), C3 as (_ & B3 & E3). apply abs_le_inv in B1, B2, B3, E1, E2, E3.
  set (t1 := val (add f64_one x1)) in *. set (t2 := val (sub (add f64_one x1) x2)) in *. set (t3 := val (sub (sub (add f64_one x1) x2) x3)) in *.
  pose proof (u_times (1 + val x1) (203 / 100) ltac:(apply Rabs_le; lra)) as M1. assert (D1' : Rabs (t1 - (1 + val x1)) <= 203 / 100 * uro) by lra. apply abs_le_inv in D1'.
  pose proof (u_times (t1 - val x2) (305 / 100) ltac:(apply Rabs_le; lra)) as M2. assert (D2' : Rabs (t2 - (t1 - val x2)) <= 305 / 100 * uro) by lra. apply abs_le_inv in D2'.
  pose proof (u_times (t2 - val x3) (406 / 100) ltac:(apply Rabs_le; lra)) as M3. assert (D3' : Rabs (t3 - (t2 - val x3)) <= 406 / 100 * uro) by lra. apply abs_le_inv in D3'.
  apply Rabs_le. lra.
Qed.

(** ** The run *)
Lemma max3 (a b c : f64) : fin a -> fin b -> fin c -> exists k, vec_find_max_index [a; b; c] = Ok k /\
  (k = 0%nat /\ val b <= val a /\ val c <= val a \/ k = 1%nat /\ val a < val b /\ val c <= val b \/ k = 2%nat /\ val a < val c /\ val b < val c).
Proof.
  intros Fa Fb Fc. unfold vec_find_max_index, max_element_by. cbn -[Bltb].
  pose proof (Bltb_fin a b Fa Fb) as H1. pose proof (Bltb_fin_false a b Fa Fb) as H2. pose proof (Bltb_fin a c Fa Fc) as H3. pose proof (Bltb_fin_false a c Fa Fc) as H4. pose proof (Bltb_fin b c Fb Fc) as H5. pose proof (Bltb_fin_false b c Fb Fc) as H6.
  destruct (Bltb a b); cbn -[Bltb]; [destruct (Bltb b c)|destruct (Bltb a c)]; cbn -[Bltb]; eexists; (split; [reflexivity|]).
  - right; right. repeat split; [apply Rlt_trans with (val b); [apply H1|apply H5]|apply H5]; reflexivity.
  - right; left. repeat split; [apply H1|apply H6]; reflexivity.
  - right; right. assert (val a < val c) by (apply H3; reflexivity). assert (val b <= val a) by (apply H2; reflexivity). repeat split; lra.
  - left. repeat split; [apply H2|apply H4]; reflexivity.
Qed.

Definition sc (p : f64) : f64 := div f64_half (b64_sqrt mode_NE p).
Definition trace64 (g : nat -> nat -> f64) : f64 := add (add (add (g 0%nat 0%nat) (g 1%nat 1%nat)) (g 2%nat 2%nat)) f64_one.
Definition piv (g : nat -> nat -> f64) (i j k : nat) : f64 := sub (sub (add f64_one (g i i)) (g j j)) (g k k).
Definition set_w g : dquat := let s := sc (trace64 g) in
  (mul (sub (g 2%nat 1%nat) (g 1%nat 2%nat)) s, mul (sub (g 0%nat 2%nat) (g 2%nat 0%nat)) s, mul (sub (g 1%nat 0%nat) (g 0%nat 1%nat)) s, div f64_quarter s).
Definition set_x g : dquat := let s := sc (piv g 0%nat 1%nat 2%nat) in
  (div f64_quarter s, mul (add (g 0%nat 1%nat) (g 1%nat 0%nat)) s, mul (add (g 0%nat 2%nat) (g 2%nat 0%nat)) s, mul (sub (g 1%nat 2%nat) (g 2%nat 1%nat)) s).
Definition set_y g : dquat := let s := sc (piv g 1%nat 0%nat 2%nat) in
  (mul (add (g 0%nat 1%nat) (g 1%nat 0%nat)) s, div f64_quarter s, mul (add (g 1%nat 2%nat) (g 2%nat 1%nat)) s, mul (sub (g 0%nat 2%nat) (g 2%nat 0%nat)) s).
Definition set_z g : dquat := let s := sc (piv g 2%nat 0%nat 1%nat) in
  (mul (add (g 0%nat 2%nat) (g 2%nat 0%nat)) s, mul (add (g 1%nat 2%nat) (g 2%nat 1%nat)) s, div f64_quarter s, mul (sub (g 0%nat 1%nat) (g 1%nat 0%nat)) s).
Lemma set_run {cfg : Cfg} D m g (q0 : dquat) : (3 <= D)%nat -> repM D D m g -> q_set_matrix D (arr q0) m =
  if Bltb f64_trace_eps (trace64 g) then Ok (arr (set_w g)) else
  k <- vec_find_max_index [g 0%nat 0%nat; g 1%nat 1%nat; g 2%nat 2%nat] ;;
  if (k =? 0)%nat then Ok (arr (set_x g)) else if (k =? 1)%nat then Ok (arr (set_y g)) else if (k =? 2)%nat then Ok (arr (set_z g)) else UB.
Proof.
  intros HD Hm. unfold q_set_matrix. rewrite !(mat_at_ok D D m g _ _ Hm) by lia. cbn [bind]. cbv zeta. rewrite lit_trace_eps, lit_quarter.
  destruct q0 as [[[a b] c] d]. change (sltb f64_trace_eps) with (Bltb f64_trace_eps). unfold trace64. change (@sadd f64 F64Scalar) with (b64_plus mode_NE). change (@sone f64 F64Scalar) with f64_one. destruct (Bltb f64_trace_eps _); [reflexivity|]. destruct (vec_find_max_index _) as [k| | |]; cbn [bind]; [|reflexivity..].
  destruct (k =? 0)%nat; [reflexivity|]. destruct (k =? 1)%nat; [reflexivity|]. destruct (k =? 2)%nat; reflexivity.
Qed.

(** ** The cells *)
Section Cells.
Context (x y z w e : R) (g : nat -> nat -> f64).
Let q : Quat := (x, y, z, w).
Hypotheses (Hq : x * x + y * y + z * z + w * w = 1) (He : 0 <= e)
  (Hg : forall i j, (i < 3)%nat -> (j < 3)%nat -> fin (g i j) /\ Rabs (val (g i j) - rotcell q i j) <= e).
Let E : R := e + 4 * uro.
Lemma cells i j : (i < 3)%nat -> (j < 3)%nat -> cell e (g i j) (rotcell q i j).
Proof.
  intros Hi Hj. destruct (Hg i j Hi Hj) as (F & D). split; [exact F|]. split; [|exact D]. clear Hg F D. unfold q.
  assert (SQ : forall u v : R, 0 <= u * u + v * v + 2 * (u * v) /\ 0 <= u * u + v * v - 2 * (u * v)) by (intros u v; split; [replace (_ + _) with ((u + v) * (u + v)) by ring|replace (_ - _) with ((u - v) * (u - v)) by ring]; apply Rle_0_sqr).
  pose proof (SQ x y). pose proof (SQ x z). pose proof (SQ x w). pose proof (SQ y z). pose proof (SQ y w). pose proof (SQ z w). pose proof (Rle_0_sqr x) as P1. pose proof (Rle_0_sqr y) as P2. pose proof (Rle_0_sqr z) as P3. pose proof (Rle_0_sqr w) as P4. unfold Rsqr in *.
  destruct i as [|[|[|i]]]; try lia; destruct j as [|[|[|j]]]; try lia; cbn [rotcell]; apply Rabs_le; lra.
Qed.
Lemma le1 : Rabs x <= 1 /\ Rabs y <= 1 /\ Rabs z <= 1 /\ Rabs w <= 1.
Proof. repeat split; apply Rabs_le; nra. Qed.
Lemma sgn (c : R) : exists s, (s = 1 \/ s = -1) /\ c = s * Rabs c /\ Rabs c = s * c.
Proof. destruct (Rle_lt_dec 0 c); [exists 1; rewrite Rabs_pos_eq by lra|exists (-1); rewrite Rabs_left by lra]; repeat split; auto; ring. Qed.
Lemma sgn_le s c : s = 1 \/ s = -1 -> Rabs c <= 1 -> Rabs (s * c) <= 1.
Proof. intros [->| ->] H; [rewrite Rmult_1_l; exact H|]. replace (-1 * c) with (- c) by ring. rewrite Rabs_Ropp. exact H. Qed.
Lemma sqa c : Rabs c * Rabs c = c * c.
Proof. rewrite <- Rabs_mult. apply Rabs_pos_eq. nra. Qed.
Definition nearby (r : dquat) (t : Quat) (b : R) : Prop := qeach fin r /\ exists s, (s = 1 \/ s = -1) /\ qnear r (qscaleR s t) b.

Lemma near_w : E <= w * w / 100 -> nearby (set_w g) (x, y, z, w) (2 * E / (w * w)).
Proof.
  intros HE. pose proof uro_pos as UP. destruct le1 as (Lx & Ly & Lz & Lw). destruct (sgn w) as (s & Hs & W1 & W2). pose proof (sqa w) as W3. rewrite <- W3 in HE |- *.
  assert (E0 : 0 < E) by (unfold E; lra). assert (ES : 0 <= e <= / 100) by (unfold E in HE; split; nra).
  assert (A0 : 0 < Rabs w <= 1). { split; [|exact Lw]. pose proof (Rabs_pos w). destruct (Req_dec (Rabs w) 0) as [Z|Z]; [rewrite Z in HE; lra|lra]. }
  destruct (trace_sum e _ _ _ _ _ _ ES (cells 0%nat 0%nat ltac:(lia) ltac:(lia)) (cells 1%nat 1%nat ltac:(lia) ltac:(lia)) (cells 2%nat 2%nat ltac:(lia) ltac:(lia))) as (FT & DT). fold (trace64 g) in FT, DT.
  assert (PT : Rabs (val (trace64 g) - 4 * (Rabs w * Rabs w)) <= 3 * E).
  { rewrite W3. replace (4 * (w * w)) with (rotcell q 0%nat 0%nat + rotcell q 1%nat 1%nat + rotcell q 2%nat 2%nat + 1) by (unfold q; cbn [rotcell]; rewrite <- Hq; ring). unfold E. lra. }
  destruct (branch_main (Rabs w) E (trace64 g) A0 ltac:(unfold E; lra) HE FT PT) as (F4 & D4).
  pose proof (fun c b => branch_off (Rabs w) E (trace64 g) A0 ltac:(unfold E; lra) HE FT PT c b) as OFF. fold (sc (trace64 g)) in F4, D4, OFF.
  assert (G : forall i j (b : R), (i < 3)%nat -> (j < 3)%nat -> Rabs b <= 1 -> rotcell q i j - rotcell q j i = 4 * (w * b) ->
     fin (mul (sub (g i j) (g j i)) (sc (trace64 g))) /\ Rabs (val (mul (sub (g i j) (g j i)) (sc (trace64 g))) - s * b) <= 2 * E / (Rabs w * Rabs w)).
  { intros i j b Hi Hj Hb Hr. destruct (sub_two e _ _ _ _ ES (cells i j Hi Hj) (cells j i Hj Hi)) as (FC & DC).
    apply OFF; [apply sgn_le; assumption|exact FC|]. replace (4 * Rabs w * (s * b)) with (rotcell q i j - rotcell q j i); [unfold E; lra|]. rewrite Hr. rewrite W1 at 1. ring. }
  destruct (G 2%nat 1%nat x ltac:(lia) ltac:(lia) Lx ltac:(unfold q; cbn [rotcell]; ring)) as (F1 & D1).
  destruct (G 0%nat 2%nat y ltac:(lia) ltac:(lia) Ly ltac:(unfold q; cbn [rotcell]; ring)) as (F2 & D2).
  destruct (G 1%nat 0%nat z ltac:(lia) ltac:(lia) Lz ltac:(unfold q; cbn [rotcell]; ring)) as (F3 & D3).
  split; [repeat split; assumption|]. exists s. split; [exact Hs|]. rewrite W2 in D4 at 1. repeat split; assumption.
Qed.

Lemma near_piv (v : R) (i j k : nat) : (i < 3)%nat -> (j < 3)%nat -> (k < 3)%nat -> Rabs v <= 1 -> 1 + rotcell q i i - rotcell q j j - rotcell q k k = 4 * (v * v) ->
  E <= v * v / 100 -> exists s, (s = 1 \/ s = -1) /\
  (fin (div f64_quarter (sc (piv g i j k))) /\ Rabs (val (div f64_quarter (sc (piv g i j k))) - s * v) <= 2 * E / (v * v)) /\
  (forall l n b, (l < 3)%nat -> (n < 3)%nat -> Rabs b <= 1 -> rotcell q l n + rotcell q n l = 4 * (v * b) ->
    fin (mul (add (g l n) (g n l)) (sc (piv g i j k))) /\ Rabs (val (mul (add (g l n) (g n l)) (sc (piv g i j k))) - s * b) <= 2 * E / (v * v)) /\
  (forall l n b, (l < 3)%nat -> (n < 3)%nat -> Rabs b <= 1 -> rotcell q l n - rotcell q n l = 4 * (v * b) ->
    fin (mul (sub (g l n) (g n l)) (sc (piv g i j k))) /\ Rabs (val (mul (sub (g l n) (g n l)) (sc (piv g i j k))) - s * b) <= 2 * E / (v * v)).
Proof.
  intros Hi Hj Hk Lv HV HE. pose proof uro_pos as UP. destruct (sgn v) as (s & Hs & W1 & W2). pose proof (sqa v) as W3. rewrite <- W3 in HE |- *.
  assert (E0 : 0 < E) by (unfold E; lra). assert (V1 : Rabs v * Rabs v <= 1 * 1) by (apply Rmult_le_compat; try apply Rabs_pos; assumption). assert (ES : 0 <= e <= / 100) by (unfold E in HE; lra).
  assert (A0 : 0 < Rabs v <= 1). { split; [|exact Lv]. pose proof (Rabs_pos v). destruct (Req_dec (Rabs v) 0) as [Z|Z]; [rewrite Z in HE; lra|lra]. }
  destruct (pivot_sum e _ _ _ _ _ _ ES (cells i i Hi Hi) (cells j j Hj Hj) (cells k k Hk Hk)) as (FT & DT). fold (piv g i j k) in FT, DT.
  assert (PT : Rabs (val (piv g i j k) - 4 * (Rabs v * Rabs v)) <= 3 * E) by (rewrite W3, <- HV; unfold E; lra).
  destruct (branch_main (Rabs v) E (piv g i j k) A0 ltac:(unfold E; lra) HE FT PT) as (F4 & D4).
  pose proof (fun c b => branch_off (Rabs v) E (piv g i j k) A0 ltac:(unfold E; lra) HE FT PT c b) as OFF. fold (sc (piv g i j k)) in F4, D4, OFF.
  exists s. split; [exact Hs|]. split; [split; [exact F4|]; rewrite W2 in D4 at 1; exact D4|]. split.
  - intros l n b Hl Hn Hb Hr. destruct (add_two e _ _ _ _ ES (cells l n Hl Hn) (cells n l Hn Hl)) as (FC & DC).
    apply OFF; [apply sgn_le; assumption|exact FC|]. replace (4 * Rabs v * (s * b)) with (rotcell q l n + rotcell q n l); [unfold E; lra|]. rewrite Hr. rewrite W1 at 1. ring.
  - intros l n b Hl Hn Hb Hr. destruct (sub_two e _ _ _ _ ES (cells l n Hl Hn) (cells n l Hn Hl)) as (FC & DC).
    apply OFF; [apply sgn_le; assumption|exact FC|]. replace (4 * Rabs v * (s * b)) with (rotcell q l n - rotcell q n l); [unfold E; lra|]. rewrite Hr. rewrite W1 at 1. ring.
Qed.
Ltac rot := unfold q; cbn [rotcell]; first [ring | rewrite <- Hq; ring].
Lemma near_x : E <= x * x / 100 -> nearby (set_x g) (x, y, z, - w) (2 * E / (x * x)).
Proof.
  intros HE. destruct le1 as (Lx & Ly & Lz & Lw). assert (Lw' : Rabs (- w) <= 1) by (rewrite Rabs_Ropp; exact Lw).
  destruct (near_piv x 0%nat 1%nat 2%nat ltac:(lia) ltac:(lia) ltac:(lia) Lx ltac:(rot) HE) as (s & Hs & (F1 & D1) & P & M).
  destruct (P 0%nat 1%nat y ltac:(lia) ltac:(lia) Ly ltac:(rot)) as (F2 & D2). destruct (P 0%nat 2%nat z ltac:(lia) ltac:(lia) Lz ltac:(rot)) as (F3 & D3).
  destruct (M 1%nat 2%nat (- w) ltac:(lia) ltac:(lia) Lw' ltac:(rot)) as (F4 & D4).
  split; [repeat split; assumption|]. exists s. split; [exact Hs|]. repeat split; assumption.
Qed.
Lemma near_y : E <= y * y / 100 -> nearby (set_y g) (x, y, z, w) (2 * E / (y * y)).
Proof.
  intros HE. destruct le1 as (Lx & Ly & Lz & Lw).
  destruct (near_piv y 1%nat 0%nat 2%nat ltac:(lia) ltac:(lia) ltac:(lia) Ly ltac:(rot) HE) as (s & Hs & (F1 & D1) & P & M).
  destruct (P 0%nat 1%nat x ltac:(lia) ltac:(lia) Lx ltac:(rot)) as (F2 & D2). destruct (P 1%nat 2%nat z ltac:(lia) ltac:(lia) Lz ltac:(rot)) as (F3 & D3).
  destruct (M 0%nat 2%nat w ltac:(lia) ltac:(lia) Lw ltac:(rot)) as (F4 & D4).
  split; [repeat split; assumption|]. exists s. split; [exact Hs|]. repeat split; assumption.
Qed.
Lemma near_z : E <= z * z / 100 -> nearby (set_z g) (x, y, z, - w) (2 * E / (z * z)).
Proof.
  intros HE. destruct le1 as (Lx & Ly & Lz & Lw). assert (Lw' : Rabs (- w) <= 1) by (rewrite Rabs_Ropp; exact Lw).
  destruct (near_piv z 2%nat 0%nat 1%nat ltac:(lia) ltac:(lia) ltac:(lia) Lz ltac:(rot) HE) as (s & Hs & (F1 & D1) & P & M).
  destruct (P 0%nat 2%nat x ltac:(lia) ltac:(lia) Lx ltac:(rot)) as (F2 & D2). destruct (P 1%nat 2%nat y ltac:(lia) ltac:(lia) Ly ltac:(rot)) as (F3 & D3).
  destruct (M 0%nat 1%nat (- w) ltac:(lia) ltac:(lia) Lw' ltac:(rot)) as (F4 & D4).
  split; [repeat split; assumption|]. exists s. split; [exact Hs|]. repeat split; assumption.
Qed.
Lemma trace_near : e <= / 100 -> fin (trace64 g) /\ Rabs (val (trace64 g) - 4 * (w * w)) <= 3 * E.
Proof.
  intros ES. destruct (trace_sum e _ _ _ _ _ _ (conj He ES) (cells 0%nat 0%nat ltac:(lia) ltac:(lia)) (cells 1%nat 1%nat ltac:(lia) ltac:(lia)) (cells 2%nat 2%nat ltac:(lia) ltac:(lia))) as (FT & DT). fold (trace64 g) in FT, DT.
  split; [exact FT|]. replace (4 * (w * w)) with (rotcell q 0%nat 0%nat + rotcell q 1%nat 1%nat + rotcell q 2%nat 2%nat + 1) by rot. unfold E. lra.
Qed.
End Cells.

(** C179.  m is a double matrix, of any size from 3 x 3 on, whose upper left
    block is within e of the matrix A of the rotation by the unit quaternion
    (x, y, z, w); the sign of a quaternion is not determined by its rotation. *)
Theorem C179_from_rotation_matrix :
  forall (cfg : Cfg) (D : nat) (m : list f64) (g : nat -> nat -> f64) (q0 : dquat) (A : nat -> nat -> R) (x y z w e : R),
  let q := (x, y, z, w) in
  (3 <= D)%nat -> repM D D m g -> qabsR q = 1 ->
  (forall v : V3, qpureR (mv3R A v) = qmulR (qmulR q (qpureR v)) (qconjR q)) ->
  (forall i j, (i < 3)%nat -> (j < 3)%nat -> fin (g i j) /\ Rabs (val (g i j) - A i j) <= e) -> 0 <= e ->
  102 / 10000000 <= 4 * (w * w) -> e + 4 / 2 ^ 53 <= w * w / 100 ->
  exists r s, q_set_matrix D (arr q0) m = Ok (arr r) /\ qeach fin r /\ (s = 1 \/ s = -1) /\
  qnear r (qscaleR s q) (2 * (e + 4 / 2 ^ 53) / (w * w)).
Proof.
  intros cfg D m g q0 A x y z w e q HD Hm H1 Ha Hg He Hw HE.
  apply unit_dot in H1. cbn [qdotR q] in H1. pose proof (proj1 (acts_iff A q) Ha) as RC.
  assert (Hg' : forall i j, (i < 3)%nat -> (j < 3)%nat -> fin (g i j) /\ Rabs (val (g i j) - rotcell (x, y, z, w) i j) <= e) by (intros i j Hi Hj; destruct (Hg i j Hi Hj) as (F0 & D0); rewrite (RC i j Hi Hj) in D0; split; assumption).
  assert (UE : e + 4 / 2 ^ 53 = e + 4 * uro) by (rewrite uro_val; lra). rewrite UE in *. pose proof uro_pos as UP.
  assert (W1 : w * w <= 1) by nra.
  destruct (trace_near x y z w e g H1 He Hg' ltac:(lra)) as (FT & DT). apply abs_le_inv in DT.
  pose proof val_trace_eps as VE. apply abs_le_inv in VE.
  rewrite (set_run D m g q0 HD Hm). rewrite (proj2 (Bltb_fin f64_trace_eps (trace64 g) eq_refl FT)) by lra.
  destruct (near_w x y z w e g H1 He Hg' HE) as (F & s & Hs & N). exists (set_w g), s. repeat (split; [first [reflexivity|assumption]|]). exact N.
Qed.
Print Assumptions C179_from_rotation_matrix.

(** Rotations by nearly a half turn: the quaternion comes out as q only if y is
    the largest component; otherwise w has the wrong sign (as in C61), so that
    the result is, up to its sign, the conjugate of q: the inverse rotation. *)
Theorem C179_half_turns :
  forall (cfg : Cfg) (D : nat) (m : list f64) (g : nat -> nat -> f64) (q0 : dquat) (A : nat -> nat -> R) (x y z w e : R),
  let q := (x, y, z, w) in
  (3 <= D)%nat -> repM D D m g -> qabsR q = 1 ->
  (forall v : V3, qpureR (mv3R A v) = qmulR (qmulR q (qpureR v)) (qconjR q)) ->
  (forall i j, (i < 3)%nat -> (j < 3)%nat -> fin (g i j) /\ Rabs (val (g i j) - A i j) <= e) -> 0 <= e <= 5 / 100000000 ->
  4 * (w * w) <= 98 / 10000000 ->
  exists r s t, q_set_matrix D (arr q0) m = Ok (arr r) /\ qeach fin r /\ (s = 1 \/ s = -1) /\ (t = 1 \/ t = -1) /\
  qnear r (qscaleR s (x, y, z, t * w)) (7 * (e + 4 / 2 ^ 53)) /\
  (x * x + e < y * y -> z * z + e < y * y -> t = 1) /\
  (y * y + e < x * x \/ y * y + e < z * z -> t = -1).
Proof.
  intros cfg D m g q0 A x y z w e q HD Hm H1 Ha Hg He Hw.
  apply unit_dot in H1. cbn [qdotR q] in H1. pose proof (proj1 (acts_iff A q) Ha) as RC.
  assert (Hg' : forall i j, (i < 3)%nat -> (j < 3)%nat -> fin (g i j) /\ Rabs (val (g i j) - rotcell (x, y, z, w) i j) <= e) by (intros i j Hi Hj; destruct (Hg i j Hi Hj) as (F0 & D0); rewrite (RC i j Hi Hj) in D0; split; assumption).
  assert (UE : e + 4 / 2 ^ 53 = e + 4 * uro) by (rewrite uro_val; lra). rewrite UE in *. pose proof uro_pos as UP. assert (US : uro <= / 1000000000000) by (rewrite uro_val; lra).
  destruct (trace_near x y z w e g H1 (proj1 He) Hg' ltac:(lra)) as (FT & DT). apply abs_le_inv in DT.
  pose proof val_trace_eps as VE. apply abs_le_inv in VE.
  rewrite (set_run D m g q0 HD Hm). rewrite (proj2 (Bltb_fin_false f64_trace_eps (trace64 g) eq_refl FT)) by lra.
  destruct (Hg' 0%nat 0%nat ltac:(lia) ltac:(lia)) as (F0 & D0). destruct (Hg' 1%nat 1%nat ltac:(lia) ltac:(lia)) as (F1 & D1). destruct (Hg' 2%nat 2%nat ltac:(lia) ltac:(lia)) as (F2 & D2).
  cbn [rotcell] in D0, D1, D2. apply abs_le_inv in D0, D1, D2.
  destruct (max3 _ _ _ F0 F1 F2) as (k & -> & [(-> & K1 & K2)|[(-> & K1 & K2)|(-> & K1 & K2)]]); cbn [bind Nat.eqb].
  - assert (X : 33 / 100 <= x * x) by lra. destruct (near_x x y z w e g H1 (proj1 He) Hg' ltac:(lra)) as (F & s & Hs & N).
    exists (set_x g), s, (-1). split; [reflexivity|]. split; [exact F|]. split; [exact Hs|]. split; [right; reflexivity|]. split; [|split; [intros; lra|reflexivity]].
    replace (-1 * w) with (- w) by ring. set (E := e + 4 * uro) in *.
    assert (B : 2 * E / (x * x) <= 7 * E). { apply (Rmult_le_reg_r (x * x)); [lra|]. replace (2 * E / (x * x) * (x * x)) with (2 * E) by (field; nra). assert (0 <= E) by (unfold E; lra). nra. }
    destruct (set_x g) as [[[? ?] ?] ?]. cbn [qscaleR qnear] in *. repeat split; (eapply Rle_trans; [apply N|exact B]).
  - assert (X : 33 / 100 <= y * y) by lra. destruct (near_y x y z w e g H1 (proj1 He) Hg' ltac:(lra)) as (F & s & Hs & N).
    exists (set_y g), s, 1. split; [reflexivity|]. split; [exact F|]. split; [exact Hs|]. split; [left; reflexivity|]. split; [|split; [reflexivity|intros [?|?]; lra]].
    replace (1 * w) with w by ring. set (E := e + 4 * uro) in *.
    assert (B : 2 * E / (y * y) <= 7 * E). { apply (Rmult_le_reg_r (y * y)); [lra|]. replace (2 * E / (y * y) * (y * y)) with (2 * E) by (field; nra). assert (0 <= E) by (unfold E; lra). nra. }
    destruct (set_y g) as [[[? ?] ?] ?]. cbn [qscaleR qnear] in *. repeat split; (eapply Rle_trans; [apply N|exact B]).
  - assert (X : 33 / 100 <= z * z) by lra. destruct (near_z x y z w e g H1 (proj1 He) Hg' ltac:(lra)) as (F & s & Hs & N).
    exists (set_z g), s, (-1). split; [reflexivity|]. split; [exact F|]. split; [exact Hs|]. split; [right; reflexivity|]. split; [|split; [intros; lra|reflexivity]].
    replace (-1 * w) with (- w) by ring. set (E := e + 4 * uro) in *.
    assert (B : 2 * E / (z * z) <= 7 * E). { apply (Rmult_le_reg_r (z * z)); [lra|]. replace (2 * E / (z * z) * (z * z)) with (2 * E) by (field; nra). assert (0 <= E) by (unfold E; lra). nra. }
    destruct (set_z g) as [[[? ?] ?] ?]. cbn [qscaleR qnear] in *. repeat split; (eapply Rle_trans; [apply N|exact B]).
Qed.
Print Assumptions C179_half_turns.

(** From a quaternion of length 1 up to d to its rotation matrix and back. *)
Lemma rotcell_scale k p i j : (i < 3)%nat -> (j < 3)%nat -> rotcell (qscaleR k p) i j = k * k * rotcell p i j.
Proof.
  intros Hi Hj. destruct p as [[[x y] z] w]. destruct i as [|[|[|i]]]; try lia; destruct j as [|[|[|j]]]; try lia; cbn [rotcell qscaleR]; ring.
Qed.
Lemma rotcell_le p i j : (i < 3)%nat -> (j < 3)%nat -> qdotR p p = 1 -> Rabs (rotcell p i j) <= 1.
Proof.
  intros Hi Hj. destruct p as [[[x y] z] w]. cbn [qdotR]. intros Hq.
  assert (SQ : forall u v : R, 0 <= u * u + v * v + 2 * (u * v) /\ 0 <= u * u + v * v - 2 * (u * v)) by (intros u v; split; [replace (_ + _) with ((u + v) * (u + v)) by ring|replace (_ - _) with ((u - v) * (u - v)) by ring]; apply Rle_0_sqr).
  pose proof (SQ x y). pose proof (SQ x z). pose proof (SQ x w). pose proof (SQ y z). pose proof (SQ y w). pose proof (SQ z w). pose proof (Rle_0_sqr x) as P1. pose proof (Rle_0_sqr y) as P2. pose proof (Rle_0_sqr z) as P3. pose proof (Rle_0_sqr w) as P4. unfold Rsqr in *.
  destruct i as [|[|[|i]]]; try lia; destruct j as [|[|[|j]]]; try lia; cbn [rotcell]; apply Rabs_le; lra.
Qed.
Theorem C179_round_trip :
  forall (cfg : Cfg) (q q0 : dquat) (d : R), let '(_, _, _, w) := qv q in
  qeach fin q -> Rabs (qabsR (qv q) - 1) <= d -> d <= 1 / 1000 ->
  11 / 1000000 <= 4 * (w * w) -> 3 * d + 16 / 2 ^ 53 <= w * w / 200 ->
  exists m r s, q_get_rotation_matrix (arr q) = Ok m /\ q_set_matrix 3 (arr q0) m = Ok (arr r) /\ qeach fin r /\ (s = 1 \/ s = -1) /\
  qnear r (qscaleR s (qv q)) (2 * (3 * d + 16 / 2 ^ 53) / (w * w)).
Proof.
  intros cfg q q0 d. destruct (qv q) as [[[x y] z] w] eqn:EQ. intros Fq Hd Hd1 Hw HM.
  apply abs_le_inv in Hd as Hd'. set (N := qabsR (x, y, z, w)) in *. pose proof uro_pos as UP. assert (US : uro <= / 1000000000000) by (rewrite uro_val; lra).
  assert (UE : 16 / 2 ^ 53 = 16 * uro) by (rewrite uro_val; lra). rewrite UE in *.
  assert (Sq : qeach sane q).
  { assert (P : bp 1 <= 2 ^ 400) by (assert (2 ^ 1 <= 2 ^ 400) by (apply Rle_pow; [lra|lia]); change (bp 1) with 2; lra).
    assert (QN : qabsR (qv q) <= bp 1) by (rewrite EQ; fold N; change (bp 1) with 2; lra).
    pose proof (qeach_okf q 1 Fq QN) as O. destruct q as [[[a b] c] f]. destruct O as ((? & A) & (? & B) & (? & C) & (? & G)).
    repeat split; try assumption; lra. }
  destruct (C129_rotation_matrix_error cfg q Sq) as (m & g & EM & Hm & A & HA & HG). rewrite EQ in HA, HG. fold N in HG.
  pose proof (proj1 (acts_iff A (x, y, z, w)) HA) as RC.
  set (t := qscaleR (/ N) (x, y, z, w)).
  assert (NN : N * N = x * x + y * y + z * z + w * w) by (unfold N; rewrite qabs_sq; reflexivity).
  assert (IN : / N * N = 1) by (field; lra).
  assert (UT : qabsR t = 1).
  { unfold qabsR. replace (qdotR t t) with 1; [apply sqrt_1|]. unfold t. cbn [qscaleR qdotR].
    replace 1 with ((/ N * N) * (/ N * N)) by (rewrite IN; ring). replace (/ N * N * (/ N * N)) with (/ N * / N * (N * N)) by ring. rewrite NN. ring. }
  assert (WT : / N * w * (/ N * w) = w * w / (N * N)) by (field; lra).
  assert (N2 : 997 / 1000 <= N * N <= 1003 / 1000) by (split; nra).
  assert (WL : w * w * (996 / 1000) <= w * w / (N * N)).
  { apply (Rmult_le_reg_r (N * N)); [lra|]. replace (w * w / (N * N) * (N * N)) with (w * w) by (field; lra). assert (0 <= w * w) by nra. nra. }
  pose proof eta_small as ES.
  assert (D0 : 0 <= d) by (pose proof (Rabs_pos (N - 1)); lra).
  set (e := 201 / 100 * d + 7 * uro).
  assert (HG' : forall i j, (i < 3)%nat -> (j < 3)%nat -> fin (g i j) /\ Rabs (val (g i j) - rotcell t i j) <= e).
  { intros i j Hi Hj. destruct (HG i j Hi Hj) as (F & G). split; [exact F|]. rewrite (RC i j Hi Hj) in G.
    assert (RT : rotcell (x, y, z, w) i j = N * N * rotcell t i j).
    { unfold t. rewrite rotcell_scale by assumption. replace (N * N * (/ N * / N * rotcell (x, y, z, w) i j)) with ((/ N * N) * (/ N * N) * rotcell (x, y, z, w) i j) by ring. rewrite IN. ring. }
    pose proof (rotcell_le t i j Hi Hj (unit_dot t UT)) as L1. rewrite RT in G.
    assert (G1 : Rabs (N * N * rotcell t i j - rotcell t i j) <= 201 / 100 * d).
    { replace (N * N * rotcell t i j - rotcell t i j) with ((N * N - 1) * rotcell t i j) by ring. rewrite Rabs_mult, <- (Rmult_1_r (201 / 100 * d)).
      apply Rmult_le_compat; try apply Rabs_pos; [|exact L1]. replace (N * N - 1) with ((N - 1) * (N + 1)) by ring. rewrite Rabs_mult, (Rabs_pos_eq (N + 1)) by lra.
      rewrite Rmult_comm. apply Rmult_le_compat; try apply Rabs_pos; lra. }
    assert (G2 : 5 / 2 ^ 53 * (N * N) + 8 / 2 ^ 1075 <= 7 * uro).
    { replace (8 / 2 ^ 1075) with (8 * eta) by (unfold eta; field; apply pow_nonzero; lra). replace (5 / 2 ^ 53) with (5 * uro) by (rewrite uro_val; lra). nra. }
    replace (val (g i j) - rotcell t i j) with ((val (g i j) - N * N * rotcell t i j) + (N * N * rotcell t i j - rotcell t i j)) by ring.
    eapply Rle_trans; [apply Rabs_triang|]. unfold e. lra. }
  assert (UE4 : e + 4 / 2 ^ 53 = e + 4 * uro) by (rewrite uro_val; lra).
  destruct (C179_from_rotation_matrix cfg 3 m g q0 (rotcell t) (/ N * x) (/ N * y) (/ N * z) (/ N * w) e) as (r & s & E1 & E2 & Hs & E4); try assumption.
  - lia.
  - apply acts_iff. reflexivity.
  - unfold e. lra.
  - rewrite WT. lra.
  - rewrite WT, UE4. unfold e. lra.
  - exists m, r, s. split; [exact EM|]. split; [exact E1|]. split; [exact E2|]. split; [exact Hs|].
    rewrite UE4, WT in E4.
    assert (W0 : 0 < w * w <= 1003 / 1000) by (split; [lra|nra]).
    assert (W1 : w <> 0) by nra.
    assert (B : 2 * (e + 4 * uro) / (w * w / (N * N)) + d <= 2 * (3 * d + 16 * uro) / (w * w)).
    { apply (Rmult_le_reg_r (w * w)); [lra|]. replace (2 * (3 * d + 16 * uro) / (w * w) * (w * w)) with (2 * (3 * d + 16 * uro)) by (field; repeat split; first [exact W1|lra]).
      replace ((2 * (e + 4 * uro) / (w * w / (N * N)) + d) * (w * w)) with (2 * (e + 4 * uro) * (N * N) + d * (w * w)) by (field; repeat split; first [exact W1|lra]).
      assert (2 * (e + 4 * uro) * (N * N) <= 2 * (e + 4 * uro) * (1003 / 1000)) by (apply Rmult_le_compat_l; [unfold e; lra|lra]).
      assert (d * (w * w) <= d * (1003 / 1000)) by (apply Rmult_le_compat_l; lra). unfold e in *. lra. }
    assert (C : forall (v : f64) (p : R), Rabs p <= N -> Rabs (val v - s * (/ N * p)) <= 2 * (e + 4 * uro) / (w * w / (N * N)) -> Rabs (val v - s * p) <= 2 * (3 * d + 16 * uro) / (w * w)).
    { intros v p Hp H. eapply Rle_trans; [|exact B]. replace (val v - s * p) with ((val v - s * (/ N * p)) + s * ((/ N * p) * (1 - N))) by (field; lra).
      eapply Rle_trans; [apply Rabs_triang|]. apply Rplus_le_compat; [exact H|].
      assert (AS : Rabs s = 1) by (destruct Hs as [->| ->]; [apply Rabs_R1|replace (-1) with (- (1)) by ring; rewrite Rabs_Ropp; apply Rabs_R1]).
      rewrite Rabs_mult, AS, Rmult_1_l, Rabs_mult, <- (Rmult_1_l d). apply Rmult_le_compat; try apply Rabs_pos.
      - rewrite Rabs_mult, (Rabs_pos_eq (/ N)) by (apply Rlt_le, Rinv_0_lt_compat; lra). rewrite <- IN. apply Rmult_le_compat_l; [apply Rlt_le, Rinv_0_lt_compat; lra|exact Hp].
      - rewrite Rabs_minus_sym. exact Hd. }
    destruct (comp_le (x, y, z, w)) as (C1 & C2 & C3 & C4). fold N in C1, C2, C3, C4.
    destruct r as [[[r1 r2] r3] r4]. destruct E4 as (T1 & T2 & T3 & T4). cbn [qscaleR qnear]. repeat split; (apply C; assumption).
Qed.
Print Assumptions C179_round_trip.

(** ** The hypotheses can be met: by the rounded rotation matrix of any unit
    quaternion, e.g. (1/2, 1/2, 1/2, 1/2) and (sqrt( 1 - 10^-6 ), 0, 0, 1/1000). *)
Definition rounded (q : Quat) (i j : nat) : f64 := grid (rotcell q i j).
Lemma rounded_ok q : qabsR q = 1 -> exists m, repM 3 3 m (rounded q) /\
  (forall v : V3, qpureR (mv3R (rotcell q) v) = qmulR (qmulR q (qpureR v)) (qconjR q)) /\
  (forall i j, (i < 3)%nat -> (j < 3)%nat -> fin (rounded q i j) /\ Rabs (val (rounded q i j) - rotcell q i j) <= / 2 ^ 52).
Proof.
  intros Hq. set (g := rounded q).
  exists [g 0 0; g 1 0; g 2 0; g 0 1; g 1 1; g 2 1; g 0 2; g 1 2; g 2 2]%nat. split; [|split].
  - split; [reflexivity|]. intros i j Hi Hj. destruct i as [|[|[|i]]]; try lia; destruct j as [|[|[|j]]]; try lia; reflexivity.
  - apply acts_iff. reflexivity.
  - intros i j Hi Hj. apply grid_ok, rotcell_le; [exact Hi|exact Hj|apply unit_dot; exact Hq].
Qed.
Example C179_hypotheses_met :
  (let w := / 2 in qabsR (/ 2, / 2, / 2, w) = 1 /\ 102 / 10000000 <= 4 * (w * w) /\ / 2 ^ 52 + 4 / 2 ^ 53 <= w * w / 100) /\
  (let w := / 1000 in let x := sqrt (1 - w * w) in qabsR (x, 0, 0, w) = 1 /\ 4 * (w * w) <= 98 / 10000000 /\ / 2 ^ 52 <= 5 / 100000000 /\ 0 * 0 + / 2 ^ 52 < x * x) /\
  (qeach fin q_halves /\ qabsR (qv q_halves) = 1 /\ 11 / 1000000 <= 4 * (/ 2 * / 2) /\ 3 * 0 + 16 / 2 ^ 53 <= / 2 * / 2 / 200).
Proof.
  assert (S1 : sqrt (1 - / 1000 * / 1000) * sqrt (1 - / 1000 * / 1000) = 1 - / 1000 * / 1000) by (apply sqrt_sqrt; lra).
  cbv zeta. repeat split; try reflexivity; try lra; try apply halves_unit.
  - unfold qabsR. cbn [qdotR]. replace (_ + _) with 1 by lra. apply sqrt_1.
  - unfold qabsR. cbn [qdotR]. rewrite S1. replace (_ + _) with 1 by lra. apply sqrt_1.
Qed.
