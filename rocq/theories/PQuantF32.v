(** Properties C199, C200: quantize and dequantize in float. *)
From Coq Require Import ZArith Reals Lra Psatz List.
From Flocq Require Import Core.Core IEEE754.BinarySingleNaN IEEE754.Binary IEEE754.Bits.
From Verif Require Import InstF InstF32 MMatrix MNum MLit MFloat MQuantF LMatrix PNum PF32 LF32 PF32b LExprF PCullF Spec10f LExt32 PF32c PRayF32 LRot LDist PDist32 LQuant PNan32.
From Verif Require PFloat LErr LExt PQuantF.
Import ListNotations.
Local Open Scope R_scope.
Local Open Scope list_scope.
Local Existing Instance F32Scalar.
Local Notation bp := (bpow radix2).
Local Notation rnd64 := (round radix2 (FLT_exp (-1074) 53) (Znearest (fun x => negb (Z.even x)))).
Local Notation val64 := PFloat.val.
Local Notation rnd := (round radix2 (FLT_exp (-149) 24) (Znearest (fun x => negb (Z.even x)))).
Local Notation "a *' b" := (b32_mult mode_NE a b) (at level 40, left associativity).
Local Notation "a /' b" := (b32_div mode_NE a b) (at level 40, left associativity).
Local Notation "a +' b" := (b32_plus mode_NE a b) (at level 50, left associativity).
Local Notation "a -' b" := (b32_minus mode_NE a b) (at level 50, left associativity).

(** ** Conversions *)
Lemma of_Z_exact (z : Z) : (Z.abs z < 2 ^ 24)%Z -> fin (f32_of_Z z) /\ val (f32_of_Z z) = IZR z.
Proof.
  intros Hz. unfold f32_of_Z.
  pose proof (binary_normalize_correct 24 128 eq_refl eq_refl mode_NE z 0 false) as C.
  assert (EX : F2R (beta := radix2) {| Fnum := z; Fexp := 0 |} = IZR z) by (unfold F2R; cbn; lra).
  cbn [round_mode] in C. change (SpecFloat.fexp 24 128) with (FLT_exp (-149) 24) in C.
  assert (G : generic_format radix2 (FLT_exp (-149) 24) (F2R (beta := radix2) {| Fnum := z; Fexp := 0 |} : R)).
  { apply generic_format_FLT. apply (FLT_spec _ _ _ _ (Float radix2 z 0)); [reflexivity| |discriminate]. cbn [Fnum]. exact Hz. }
  rewrite (round_generic _ _ _ _ G), EX in C. rewrite Rlt_bool_true in C.
  2:{ eapply Rlt_trans; [|apply (bpow_lt radix2 24 128); lia]. rewrite <- abs_IZR. change (bpow radix2 53) with (IZR (2 ^ 24)). apply IZR_lt. exact Hz. }
  destruct C as (C1 & C2 & _). split; [exact C2|exact C1].
Qed.
(** Division with a bounded quotient. *)
Lemma div_E (a b : f32) (i : Z) : fin a -> val b <> 0 -> Rabs (val a / val b) <= bp i -> (-149 <= i < 128)%Z ->
  okf32 i (a /' b) /\ val (a /' b) = rnd (val a / val b) /\ Rabs (val (a /' b) - val a / val b) <= uro * Rabs (val a / val b) + eta.
Proof.
  intros Fa Hb HB Hi.
  assert (RB : Rabs (rnd (val a / val b)) <= bp i) by (apply rnd_le; [lia|exact HB]).
  destruct (div_fin a b Fa Hb) as (F & E). { eapply Rle_lt_trans; [exact RB|]. apply bpow_lt. lia. }
  split; [split; [exact F|rewrite E; exact RB]|]. split; [exact E|]. rewrite E. unfold Rdiv.
  destruct (mult_error (val a) (/ val b)) as (d & e & Hd & He & ->).
  match goal with |- Rabs (?x * (1 + d) + e - ?x) <= _ => replace (x * (1 + d) + e - x) with (d * x + e) by ring end.
  apply tri; [|exact He]. rewrite Rabs_mult. apply Rmult_le_compat_r; [apply Rabs_pos|exact Hd].
Qed.

Lemma minus_E (i : Z) (a b : f32) : okf32 i a -> okf32 i b -> (0 <= i + 1 < 128)%Z ->
  okf32 (i + 1) (a -' b) /\ val (a -' b) = rnd (val a - val b) /\ Rabs (val (a -' b) - (val a - val b)) <= uro * Rabs (val a - val b).
Proof.
  intros Ha Hb Hi. destruct (okf32_minus i a b Ha Hb Hi) as (K & E). split; [exact K|]. split; [|exact E].
  apply minus32_fin; [apply Ha|apply Hb|]. eapply Rle_lt_trans; [apply (rnd_le _ (i + 1)); [lia|]|apply bpow_lt; lia].
  destruct Ha as (_ & Ba), Hb as (_ & Bb). replace (i + 1)%Z with (1 + i)%Z by lia. rewrite bpow_plus. change (bp 1) with 2.
  apply abs_le_inv in Ba, Bb. apply Rabs_le. lra.
Qed.
Lemma plus_E (i : Z) (a b : f32) : okf32 i a -> okf32 i b -> (0 <= i + 1 < 128)%Z ->
  okf32 (i + 1) (a +' b) /\ val (a +' b) = rnd (val a + val b) /\ Rabs (val (a +' b) - (val a + val b)) <= uro * Rabs (val a + val b).
Proof.
  intros Ha Hb Hi. destruct (okf32_plus i a b Ha Hb Hi) as (K & E). split; [exact K|]. split; [|exact E].
  apply plus_fin; [apply Ha|apply Hb|]. eapply Rle_lt_trans; [apply (rnd_le _ (i + 1)); [lia|]|apply bpow_lt; lia].
  destruct Ha as (_ & Ba), Hb as (_ & Bb). replace (i + 1)%Z with (1 + i)%Z by lia. rewrite bpow_plus. change (bp 1) with 2.
  apply abs_le_inv in Ba, Bb. apply Rabs_le. lra.
Qed.
Lemma mult_E (i j : Z) (a b : f32) : okf32 i a -> okf32 j b -> (0 <= i + j < 128)%Z ->
  okf32 (i + j) (a *' b) /\ val (a *' b) = rnd (val a * val b) /\ Rabs (val (a *' b) - val a * val b) <= uro * Rabs (val a * val b) + eta.
Proof.
  intros Ha Hb Hi. destruct (okf32_mult i j a b Ha Hb Hi) as (K & E). split; [exact K|]. split; [|exact E].
  apply mult_fin; [apply Ha|apply Hb|]. eapply Rle_lt_trans; [apply (rnd_le _ (i + j)); [lia|]|apply bpow_lt; lia].
  destruct Ha as (_ & Ba), Hb as (_ & Bb). rewrite bpow_plus. apply prod_le; assumption.
Qed.
Lemma uro_r (r : Z) : (1 <= r < 2 ^ 20)%Z -> 1 <= IZR r /\ 7 * uro * IZR r <= 7 / 16.
Proof.
  intros (H1 & H2). apply (IZR_le 1) in H1. split; [exact H1|]. apply IZR_lt in H2. rewrite uro_val.
  change (2 ^ 20)%Z with 1048576%Z in H2. lra.
Qed.

Section Q.
Context (mn mx : f32) (Hmn : okf32 90 mn) (Hmx : okf32 90 mx) (HT : bp (-90) <= val mx - val mn) (r : Z) (Hr : (1 <= r < 2 ^ 20)%Z).
Let T := val mx - val mn.
Let t := mx -' mn.
Lemma T0 : 0 < T. Proof. pose proof (bpow_gt_0 radix2 (-90)). unfold T. lra. Qed.
Lemma eT0 : eta <= uro * bp (-90) / 2000.
Proof.
  rewrite <- eta_bpow. pose proof (bpow_ge_0 radix2 (-149)) as G0. apply Rle_trans with (bp (-149)); [lra|].
  change (-149)%Z with (-59 + -90)%Z. rewrite (bpow_plus radix2 (-59) (-90)). pose proof (bpow_gt_0 radix2 (-90)) as G.
  assert (L : bp (-59) <= uro / 2000).
  { apply Rle_trans with (bp (-59)); [apply bpow_le; lia|]. rewrite uro_val. cbn. lra. }
  apply (Rmult_le_compat_r (bp (-90))) in L; [|lra]. lra.
Qed.
Lemma eT : eta <= uro * (T / 2) / 1000.
Proof. pose proof eT0. assert (uro * bp (-90) <= uro * T) by (apply Rmult_le_compat_l; [pose proof us; lra|exact HT]). lra. Qed.
Lemma eT1 : eta <= uro * T / 1000.
Proof. pose proof eT. pose proof T0. assert (0 <= uro * T) by (apply Rmult_le_pos; [pose proof us; lra|lra]). lra. Qed.
Lemma t_E : okf32 91 t /\ Rabs (val t - T) <= uro * T /\ 0 < val t.
Proof.
  destruct (minus_E 90 mx mn Hmx Hmn ltac:(lia)) as (K & _ & E). pose proof T0 as P. fold T in E. fold t in K, E. rewrite (Rabs_pos_eq T) in E by lra.
  split; [exact K|]. split; [exact E|]. pose proof us. assert (uro * T <= / 1000000 * T) by (apply Rmult_le_compat_r; lra). apply abs_le_inv in E. lra.
Qed.
Lemma r_E : okf32 20 (f32_of_Z r) /\ val (f32_of_Z r) = IZR r.
Proof.
  destruct (of_Z_exact r) as (F & V). { change (2 ^ 24)%Z with (16 * 2 ^ 20)%Z. lia. }
  split; [|exact V]. split; [exact F|]. rewrite V, Rabs_pos_eq by (apply (IZR_le 0); lia). change (bp 20) with (IZR (2 ^ 20)). apply IZR_le. lia.
Qed.
Definition s_of (w' : f32) : f32 := (w' *' f32_of_Z r) /' t.
Definition q_of (w' : f32) : f64 := b64_plus mode_NE (f64_of_f32 (s_of w')) f64_half.
Lemma q_of_E (w : R) (w' : f32) : okf32 103 w' -> Rabs (val w' - w) <= uro * Rabs w -> Rabs w <= 1024 * T ->
  PFloat.fin (q_of w') /\ val64 (q_of w') = rnd64 (rnd (rnd (val w' * IZR r) / val t) + / 2) /\ Rabs (val64 (q_of w')) <= bp 62 /\
  (Rabs w <= T -> Rabs (val64 (q_of w') - (w * IZR r / T + / 2)) <= 7 * uro * IZR r).
Proof.
  intros Kw Ew Bw. destruct t_E as (Kt & Et & Pt). destruct r_E as (Kr & Vr). pose proof T0 as PT. destruct (uro_r r Hr) as (R1 & R2).
  destruct (mult_E 103 20 w' (f32_of_Z r) Kw Kr ltac:(lia)) as (Kp & Vp & Ep). rewrite Vr in Vp, Ep. set (p := w' *' f32_of_Z r) in *.
  assert (EW : Rabs (val w' / 1024 - w / 1024) <= uro * Rabs (w / 1024)).
  { replace (val w' / 1024 - w / 1024) with ((val w' - w) * / 1024) by field. unfold Rdiv. rewrite !Rabs_mult, (Rabs_pos_eq (/ 1024)) by lra. lra. }
  assert (BW : Rabs (w / 1024) <= T) by (unfold Rdiv; rewrite Rabs_mult, (Rabs_pos_eq (/ 1024)) by lra; lra).
  assert (EP : Rabs (val p - val w' / 1024 * (1024 * IZR r)) <= uro * Rabs (val w' / 1024 * (1024 * IZR r)) + eta).
  { replace (val w' / 1024 * (1024 * IZR r)) with (val w' * IZR r) by field. exact Ep. }
  destruct (q_val uro eta us es (w / 1024) (val w' / 1024) (1024 * IZR r) (val p) T (val t) (val (p /' t)) 0 ltac:(lra) PT BW eT1 EW EP Et) as (Q & _).
  assert (QB : Rabs (val p / val t) <= bp 60).
  { eapply Rle_trans; [exact Q|]. destruct Hr as (_ & H2). apply IZR_lt in H2. change (bp 60) with (IZR (2 ^ 60)). change (2 ^ 20)%Z with 1048576%Z in H2. change (2 ^ 60)%Z with 1152921504606846976%Z. lra. }
  destruct (div_E p t 60 (proj1 Kp) ltac:(lra) QB ltac:(lia)) as (Ks & Vs & Es).
  destruct (widen_okf 60 (p /' t) Ks) as (Kl & El).
  destruct (PQuantF.plus_E 60 (f64_of_f32 (p /' t)) f64_half Kl (LErr.okf_le _ 60 _ PQuantF.half_ok ltac:(lia)) ltac:(lia)) as (Kv & Vv & Ev). rewrite LErr.val_half, El in Vv, Ev.
  assert (EV : Rabs (val64 (q_of w') - (val (p /' t) + / 2)) <= uro * Rabs (val (p /' t) + / 2)).
  { eapply Rle_trans; [exact Ev|]. apply Rmult_le_compat_r; [apply Rabs_pos|]. unfold PFloat.uro, uro. apply Rinv_le_contravar; [apply pow_lt; lra|apply Rle_pow; [lra|lia]]. }
  split; [apply Kv|]. split; [unfold q_of, s_of; fold p; rewrite Vv, Vs, Vp; reflexivity|]. split; [eapply Rle_trans; [apply Kv|apply bpow_le; lia]|].
  intros Bw2. destruct (q_val uro eta us es w (val w') (IZR r) (val p) T (val t) (val (p /' t)) (val64 (q_of w')) R1 PT Bw2 eT1 Ew Ep Et) as (_ & Q2).
  destruct (Q2 Es) as (_ & Q3). exact (Q3 EV).
Qed.
Lemma q_of_mono (w1 w2 : R) (a b : f32) : okf32 103 a -> okf32 103 b -> Rabs (val a - w1) <= uro * Rabs w1 -> Rabs (val b - w2) <= uro * Rabs w2 ->
  Rabs w1 <= 1024 * T -> Rabs w2 <= 1024 * T -> val a <= val b -> val64 (q_of a) <= val64 (q_of b).
Proof.
  intros Ka Kb Ea Eb Ba Bb H. destruct (q_of_E w1 a Ka Ea Ba) as (_ & -> & _). destruct (q_of_E w2 b Kb Eb Bb) as (_ & -> & _).
  destruct t_E as (_ & _ & Pt). destruct (uro_r r Hr) as (R1 & _).
  apply LExt.rnd_mono, Rplus_le_compat_r, rnd_mono. apply Rmult_le_compat_r; [left; apply Rinv_0_lt_compat, Pt|]. apply rnd_mono, Rmult_le_compat_r; lra.
Qed.
(** The clamp of dequantize. *)
Lemma clamp_E (y : f32) (x B : R) : fin y -> val mn <= x <= val mx -> Rabs (val y - x) <= B ->
  let z := if Bltb32 mn y then y else mn in let z := if Bltb32 mx z then mx else z in
  fin z /\ val mn <= val z <= val mx /\ Rabs (val z - x) <= B.
Proof.
  intros Fy Hx HB. cbv zeta. apply abs_le_inv in HB. destruct Hmn as (Fn & _), Hmx as (Fx & _).
  destruct (Bltb32 mn y) eqn:E1; [apply Bltb32_fin in E1; try assumption|apply Bltb32_fin_false in E1; try assumption].
  - destruct (Bltb32 mx y) eqn:E2; [apply Bltb32_fin in E2; try assumption|apply Bltb32_fin_false in E2; try assumption]; (split; [assumption|]; split; [lra|apply Rabs_le; lra]).
  - destruct (Bltb32 mx mn) eqn:E2; [apply Bltb32_fin in E2; try assumption; lra|apply Bltb32_fin_false in E2; try assumption]. split; [assumption|]. split; [lra|apply Rabs_le; lra].
Qed.
(** Dequantisation of k. *)
Lemma d_E (k : Z) (A : R) : (Z.abs k <= r)%Z -> Rabs (val mn) <= A -> Rabs (val mx) <= A ->
  let p := (f32_of_Z k /' f32_of_Z r) *' t in
  okf32 91 p /\ Rabs (val p - IZR k / IZR r * T) <= 7 * uro * A.
Proof.
  intros Hk A1 A2 p. destruct t_E as (Kt & Et & Pt). destruct r_E as (Kr & Vr). pose proof T0 as PT. destruct (uro_r r Hr) as (R1 & R2).
  destruct (of_Z_exact k) as (Fk & Vk). { change (2 ^ 24)%Z with (16 * 2 ^ 20)%Z. lia. }
  assert (C1 : Rabs (IZR k / IZR r) <= 1).
  { unfold Rdiv. rewrite Rabs_mult, (Rabs_pos_eq (/ IZR r)) by (left; apply Rinv_0_lt_compat; lra). rewrite <- abs_IZR.
    apply (Rmult_le_reg_r (IZR r)); [lra|]. rewrite Rmult_assoc, Rinv_l, Rmult_1_r, Rmult_1_l by lra. apply IZR_le, Hk. }
  destruct (div_E (f32_of_Z k) (f32_of_Z r) 0 Fk ltac:(lra) ltac:(rewrite Vk, Vr; exact C1) ltac:(lia)) as (Kd & _ & Ed). rewrite Vk, Vr in Ed.
  destruct (mult_E 0 91 _ _ Kd Kt ltac:(lia)) as (Kp & _ & Ep). fold p in Kp, Ep.
  split; [exact Kp|]. assert (TA : T <= 2 * A) by (apply abs_le_inv in A1, A2; unfold T; lra).
  assert (EA : eta <= uro * A / 1000).
  { pose proof eT. assert (uro * (T / 2) <= uro * A) by (apply Rmult_le_compat_l; [pose proof us; lra|lra]). lra. }
  apply (d_val uro eta us es _ (val (f32_of_Z k /' f32_of_Z r)) T (val t) (val p) A C1 PT TA EA Ed Et Ep).
Qed.
End Q.

Local Notation U b := {| ibits := b; isigned := false |}.
Local Notation I b := {| ibits := b; isigned := true |}.
Lemma bp90 : bp 90 = 2 ^ 90. Proof. rewrite (bpow_powerRZ radix2). change 90%Z with (Z.of_nat 90). rewrite <- pow_powerRZ. reflexivity. Qed.
Lemma bpm90 : bp (-90) = / 2 ^ 90. Proof. change (-90)%Z with (Z.opp 90). rewrite bpow_opp, bp90. reflexivity. Qed.
Lemma pow20 (b : Z) : (1 <= b <= 20)%Z -> (1 <= 2 ^ b - 1 < 2 ^ 20)%Z.
Proof. intros H. pose proof (pow2_ge b ltac:(lia)). pose proof (Z.pow_le_mono_r 2 b 20 ltac:(lia) ltac:(lia)). lia. Qed.

(** The range [mn, mx]: two finite doubles, not too large and not too close. *)
Definition range_ok (mn mx : f32) (A : R) : Prop :=
  fin mn /\ fin mx /\ Rabs (val mn) <= A /\ Rabs (val mx) <= A /\ A <= 2 ^ 90 /\ / 2 ^ 90 <= val mx - val mn.
Lemma range_okf (mn mx : f32) (A : R) : range_ok mn mx A -> okf32 90 mn /\ okf32 90 mx /\ bp (-90) <= val mx - val mn.
Proof.
  intros (F1 & F2 & A1 & A2 & A3 & H). rewrite bpm90. split; [split; [exact F1|rewrite bp90; exact (Rle_trans _ _ _ A1 A3)]|]. split; [split; [exact F2|rewrite bp90; exact (Rle_trans _ _ _ A2 A3)]|]. exact H.
Qed.
Lemma diff_okf (mn mx : f32) (A : R) (x : f32) : range_ok mn mx A -> fin x -> Rabs (val x - val mn) <= 1024 * (val mx - val mn) ->
  okf32 103 (x -' mn) /\ val (x -' mn) = rnd (val x - val mn) /\ Rabs (val (x -' mn) - (val x - val mn)) <= uro * Rabs (val x - val mn).
Proof.
  intros HR Fx Hx. destruct (range_okf mn mx A HR) as (K1 & K2 & HT).
  assert (E : bp 102 = 4096 * bp 90) by (change 102%Z with (12 + 90)%Z; rewrite (bpow_plus radix2 12 90); change (bp 12) with 4096; ring).
  apply (minus_E 102 x mn); [split; [exact Fx|]|exact (okf32_le 90 102 _ K1 ltac:(lia))|lia].
  rewrite E. destruct K1 as (_ & B1), K2 as (_ & B2). apply abs_le_inv in Hx, B1, B2. apply Rabs_le. lra.
Qed.
Lemma cell_U (b : Z) (x mn mx : f32) (A : R) : (1 <= b <= 20)%Z -> range_ok mn mx A -> fin x -> Rabs (val x - val mn) <= 1024 * (val mx - val mn) ->
  quantizeF_cell (U b) (2 ^ b - 1) x mn mx = Ok (Z.min (Z.max 0 (Binary.Btrunc 53 1024 (q_of mn mx (2 ^ b - 1) (x -' mn)))) (2 ^ b - 1)).
Proof.
  intros Hb HR Fx Hx. destruct (range_okf mn mx A HR) as (K1 & K2 & HT). pose proof (pow20 b Hb) as Hr.
  destruct (diff_okf mn mx A x HR Fx Hx) as (Kw & _ & Ew).
  destruct (q_of_E mn mx K1 K2 HT (2 ^ b - 1) Hr _ _ Kw Ew Hx) as (Fq & _ & Bq & _).
  destruct (PQuantF.long_q _ Fq Bq) as (EL & _).
  unfold quantizeF_cell. cbn [isigned]. unfold q_of, s_of in EL |- *. rewrite EL. cbn [bind].
  pose proof (pow2_le b ltac:(lia)). pose proof (pow2_ge b ltac:(lia)). assert (K : (2 ^ 63 > 0)%Z) by reflexivity.
  f_equal. cbn [imax imin isigned ibits]. rewrite !(iconv_in tlong) by (try reflexivity; change (imin tlong) with (- 2 ^ 63)%Z; change (imax tlong) with (2 ^ 63 - 1)%Z; lia).
  apply iconv_in; [cbn; lia|]. cbn [imin imax isigned ibits]. lia.
Qed.
(** The integer a cell of [mn, mx] gets: the scaled value, rounded. *)
Lemma near_U (b : Z) (x mn mx : f32) (A : R) : (1 <= b <= 20)%Z -> range_ok mn mx A -> fin x -> val mn <= val x <= val mx ->
  let k := Binary.Btrunc 53 1024 (q_of mn mx (2 ^ b - 1) (x -' mn)) in
  (0 <= k <= 2 ^ b - 1)%Z /\ Rabs (IZR k - (val x - val mn) * IZR (2 ^ b - 1) / (val mx - val mn)) <= / 2 + 7 * uro * IZR (2 ^ b - 1).
Proof.
  intros Hb HR Fx Hx k. destruct (range_okf mn mx A HR) as (K1 & K2 & HT). pose proof (pow20 b Hb) as Hr. pose proof (T0 mn mx HT) as PT.
  set (r := (2 ^ b - 1)%Z) in *.
  assert (Hx2 : Rabs (val x - val mn) <= 1024 * (val mx - val mn)) by (apply Rabs_le; lra).
  destruct (diff_okf mn mx A x HR Fx Hx2) as (Kw & _ & Ew).
  destruct (q_of_E mn mx K1 K2 HT r Hr _ _ Kw Ew Hx2) as (Fq & _ & Bq & N). specialize (N ltac:(apply Rabs_le; lra)).
  destruct (uro_r r Hr) as (R1 & R2). set (y := (val x - val mn) * IZR r / (val mx - val mn)) in *.
  assert (Y : 0 <= y <= IZR r).
  { assert (D : y = (val x - val mn) / (val mx - val mn) * IZR r) by (unfold y; field; lra).
    assert (D2 : 0 <= (val x - val mn) / (val mx - val mn) <= 1).
    { split; [apply Rmult_le_pos; [lra|left; apply Rinv_0_lt_compat; lra]|].
      apply (Rmult_le_reg_r (val mx - val mn)); [lra|]. unfold Rdiv. rewrite Rmult_assoc, Rinv_l, Rmult_1_r, Rmult_1_l by lra. lra. }
    rewrite D. split; [apply Rmult_le_pos; lra|]. rewrite <- (Rmult_1_l (IZR r)) at 2. apply Rmult_le_compat_r; lra. }
  apply abs_le_inv in N. pose proof (PQuantF.trunc_pos (q_of mn mx r (x -' mn)) ltac:(lra)) as TP. cbv zeta in TP. fold k in TP.
  split; [|apply Rabs_le; lra].
  assert (IZR (-1) < IZR k) by lra. assert (IZR k < IZR (r + 1)) by (rewrite plus_IZR; lra). apply lt_IZR in H, H0. lia.
Qed.
(** What dequantize() makes of k. *)
Lemma deq_U (b : Z) (k : Z) (mn mx : f32) (A : R) : (1 <= b <= 20)%Z -> range_ok mn mx A -> (0 <= k <= 2 ^ b - 1)%Z ->
  let z := dequantizeF_cell (U b) (2 ^ b - 1) k mn mx in
  fin z /\ val mn <= val z <= val mx /\ Rabs (val z - (IZR k / IZR (2 ^ b - 1) * (val mx - val mn) + val mn)) <= 81 / 10 * uro * A.
Proof.
  intros Hb HR Hk. destruct (range_okf mn mx A HR) as (K1 & K2 & HT). pose proof (pow20 b Hb) as Hr. pose proof (T0 mn mx HT) as PT.
  set (r := (2 ^ b - 1)%Z) in *. destruct (uro_r r Hr) as (R1 & R2). pose proof HR as (_ & _ & A1 & A2 & A3 & _).
  destruct (d_E mn mx K1 K2 HT r Hr k A ltac:(lia) A1 A2) as (Kp & Ep).
  destruct (plus_E 91 _ mn Kp (okf32_le 90 91 _ K1 ltac:(lia)) ltac:(lia)) as (Ky & _ & Ey).
  assert (C : 0 <= IZR k / IZR r <= 1).
  { destruct Hk as (k1 & k2). apply IZR_le in k1, k2. split; [apply Rmult_le_pos; [lra|left; apply Rinv_0_lt_compat; lra]|].
    apply (Rmult_le_reg_r (IZR r)); [lra|]. unfold Rdiv. rewrite Rmult_assoc, Rinv_l, Rmult_1_r, Rmult_1_l by lra. lra. }
  assert (CT : 0 <= IZR k / IZR r * (val mx - val mn) <= val mx - val mn).
  { split; [apply Rmult_le_pos; lra|]. rewrite <- (Rmult_1_l (val mx - val mn)) at 2. apply Rmult_le_compat_r; lra. }
  apply (clamp_E mn mx K1 K2 _ (IZR k / IZR r * (val mx - val mn) + val mn)); [apply Ky|lra|].
  refine (d_val_plus uro us _ _ _ _ _ A Ep _ Ey). apply abs_le_inv in A1, A2. apply Rabs_le. lra.
Qed.

(** C199: in float, quantising to b <= 20 unsigned bits and reading back moves a
    cell of [mn, mx] by at most half a step plus 23 u max(|mn|, |mx|). *)
Theorem C199_unsigned_roundtrip (b : Z) (M N : nat) (m out : list f32) (quant : list Z) (f : nat -> nat -> f32) (mn mx : f32) (A : R) :
  (1 <= b <= 20)%Z -> repM M N m f -> length quant = (M * N)%nat -> length out = (M * N)%nat -> range_ok mn mx A ->
  (forall i j, (i < M)%nat -> (j < N)%nat -> fin (f i j) /\ val mn <= val (f i j) <= val mx) ->
  exists quant' out' (g : nat -> nat -> Z) (h : nat -> nat -> f32),
  matF_quantize_to (U b) M N m quant mn mx = Ok quant' /\ repM M N quant' g /\
  matF_dequantize (U b) M N quant' out mn mx = Ok out' /\ repM M N out' h /\
  forall i j, (i < M)%nat -> (j < N)%nat ->
    (0 <= g i j <= 2 ^ b - 1)%Z /\ fin (h i j) /\ val mn <= val (h i j) <= val mx /\
    Rabs (val (h i j) - val (f i j)) <= (val mx - val mn) / (2 * IZR (2 ^ b - 1)) + 23 / 2 ^ 24 * A.
Proof.
  intros Hb Hm Lq Lo HR Hin. destruct (range_okf mn mx A HR) as (K1 & K2 & HT). pose proof (pow20 b Hb) as Hr. pose proof (T0 mn mx HT) as PT.
  set (g := fun i j => Binary.Btrunc 53 1024 (q_of mn mx (2 ^ b - 1) (f i j -' mn))).
  set (h := fun i j => dequantizeF_cell (U b) (2 ^ b - 1) (g i j) mn mx).
  pose proof (fun i j Hi Hj => near_U b (f i j) mn mx A Hb HR (proj1 (Hin i j Hi Hj)) (proj2 (Hin i j Hi Hj))) as C. cbv zeta in C.
  pose proof (repM_nth M N quant 0%Z Lq) as Hg0. pose proof (repM_nth M N out f32_zero Lo) as Hh0.
  assert (HQ : returns (matF_quantize_to (U b) M N m quant mn mx) (fun q => repM M N q g)).
  { unfold matF_quantize_to. rewrite range_unsigned by lia. cbn [bind].
    apply (iter_fill M N quant (fun i j => nth (j * M + i) quant 0%Z) g); [exact Hg0|]. intros r c q' Hr' Hc Lq' _.
    unfold rd. rewrite (proj2 Hm r c Hr' Hc). cbn [bind]. destruct (Hin r c Hr' Hc) as (F & B).
    rewrite (cell_U b (f r c) mn mx A Hb HR F) by (apply Rabs_le; lra). cbn [bind]. f_equal. destruct (C r c Hr' Hc) as (B1 & _). unfold g. lia. }
  destruct HQ as (quant' & EQ & HQ).
  assert (HO : returns (matF_dequantize (U b) M N quant' out mn mx) (fun o => repM M N o h)).
  { unfold matF_dequantize. rewrite range_unsigned by lia. cbn [bind].
    apply (iter_fill M N out (fun i j => nth (j * M + i) out f32_zero) h); [exact Hh0|]. intros r c o' Hr' Hc Lo' _.
    unfold rd. rewrite (proj2 HQ r c Hr' Hc). reflexivity. }
  destruct HO as (out' & EO & HO).
  exists quant', out', g, h. split; [exact EQ|]. split; [exact HQ|]. split; [exact EO|]. split; [exact HO|].
  intros i j Hi Hj. destruct (C i j Hi Hj) as (B & E). destruct (deq_U b (g i j) mn mx A Hb HR B) as (Fz & Bz & Ez). fold (h i j) in Fz, Bz, Ez.
  split; [exact B|]. split; [exact Fz|]. split; [exact Bz|]. fold (g i j) in E.
  set (r := (2 ^ b - 1)%Z) in *. destruct (uro_r r Hr) as (R1 & R2). set (T := val mx - val mn) in *. set (x := val (f i j)) in *.
  assert (TA : T <= 2 * A) by (destruct HR as (_ & _ & A1 & A2 & _); apply abs_le_inv in A1, A2; unfold T; lra).
  assert (P : 0 < T / IZR r) by (apply Rdiv_lt_0_compat; lra).
  assert (D : Rabs (IZR (g i j) / IZR r * T + val mn - x) <= (/ 2 + 7 * uro * IZR r) * (T / IZR r)).
  { replace (IZR (g i j) / IZR r * T + val mn - x) with ((IZR (g i j) - (x - val mn) * IZR r / T) * (T / IZR r)) by (field; lra).
    rewrite Rabs_mult, (Rabs_pos_eq _ (Rlt_le _ _ P)). apply Rmult_le_compat_r; lra. }
  replace ((/ 2 + 7 * uro * IZR r) * (T / IZR r)) with (T / (2 * IZR r) + 7 * (uro * T)) in D by (field; lra).
  assert (UT : uro * T <= uro * (2 * A)) by (apply Rmult_le_compat_l; [pose proof us; lra|exact TA]).
  replace (val (h i j) - x) with ((val (h i j) - (IZR (g i j) / IZR r * T + val mn)) + (IZR (g i j) / IZR r * T + val mn - x)) by ring.
  eapply Rle_trans; [apply Rabs_triang|]. change (23 / 2 ^ 24 * A) with (23 * / 2 ^ 24 * A). change (/ 2 ^ 24) with uro.
  assert (0 <= uro * A) by (apply Rmult_le_pos; [pose proof us; lra|lra]). lra.
Qed.
Print Assumptions C199_unsigned_roundtrip.

(** C199: quantisation never reverses an order, its ends are exact, and cells
    outside [mn, mx] (up to 1023 times its width) go to the nearer end. *)
Theorem C199_order (b : Z) (M N : nat) (m : list f32) (quant : list Z) (f : nat -> nat -> f32) (mn mx : f32) (A : R) :
  (1 <= b <= 20)%Z -> repM M N m f -> length quant = (M * N)%nat -> range_ok mn mx A ->
  (forall i j, (i < M)%nat -> (j < N)%nat -> fin (f i j) /\ Rabs (val (f i j) - val mn) <= 1024 * (val mx - val mn)) ->
  exists quant' (g : nat -> nat -> Z), matF_quantize_to (U b) M N m quant mn mx = Ok quant' /\ repM M N quant' g /\
  forall i j, (i < M)%nat -> (j < N)%nat ->
    (0 <= g i j <= 2 ^ b - 1)%Z /\
    (val (f i j) <= val mn -> g i j = 0%Z) /\ (val mx <= val (f i j) -> g i j = (2 ^ b - 1)%Z) /\
    (forall i' j', (i' < M)%nat -> (j' < N)%nat -> val (f i j) <= val (f i' j') -> (g i j <= g i' j')%Z).
Proof.
  intros Hb Hm Lq HR Hin. destruct (range_okf mn mx A HR) as (K1 & K2 & HT). pose proof (pow20 b Hb) as Hr. pose proof (T0 mn mx HT) as PT.
  set (q := fun x => Binary.Btrunc 53 1024 (q_of mn mx (2 ^ b - 1) (x -' mn))).
  set (g := fun i j => Z.min (Z.max 0 (q (f i j))) (2 ^ b - 1)).
  pose proof (repM_nth M N quant 0%Z Lq) as Hg0.
  assert (HQ : returns (matF_quantize_to (U b) M N m quant mn mx) (fun q => repM M N q g)).
  { unfold matF_quantize_to. rewrite range_unsigned by lia. cbn [bind].
    apply (iter_fill M N quant (fun i j => nth (j * M + i) quant 0%Z) g); [exact Hg0|]. intros r c q' Hr' Hc Lq' _.
    unfold rd. rewrite (proj2 Hm r c Hr' Hc). cbn [bind]. destruct (Hin r c Hr' Hc) as (F & B).
    rewrite (cell_U b (f r c) mn mx A Hb HR F B). reflexivity. }
  destruct HQ as (quant' & EQ & HQ). exists quant', g. split; [exact EQ|]. split; [exact HQ|].
  assert (MONO : forall x y : f32, fin x -> fin y -> Rabs (val x - val mn) <= 1024 * (val mx - val mn) -> Rabs (val y - val mn) <= 1024 * (val mx - val mn) ->
    val x <= val y -> (q x <= q y)%Z).
  { intros x y Fx Fy Bx By L. destruct (diff_okf mn mx A x HR Fx Bx) as (Kx & Vx & Ex). destruct (diff_okf mn mx A y HR Fy By) as (Ky & Vy & Ey).
    apply PQuantF.trunc_mono. apply (q_of_mono mn mx K1 K2 HT (2 ^ b - 1) Hr _ _ _ _ Kx Ky Ex Ey Bx By). rewrite Vx, Vy. apply rnd_mono. lra. }
  assert (END1 : q mn = 0%Z).
  { destruct (near_U b mn mn mx A Hb HR (proj1 K1) ltac:(lra)) as (B & E). fold (q mn) in B, E. destruct (uro_r _ Hr) as (R1 & R2).
    replace ((val mn - val mn) * IZR (2 ^ b - 1) / (val mx - val mn)) with 0 in E by (field; lra). apply abs_le_inv in E.
    assert (IZR (q mn) < 1) by lra. apply lt_IZR in H. lia. }
  assert (END2 : q mx = (2 ^ b - 1)%Z).
  { destruct (near_U b mx mn mx A Hb HR (proj1 K2) ltac:(lra)) as (B & E). fold (q mx) in B, E. destruct (uro_r _ Hr) as (R1 & R2).
    replace ((val mx - val mn) * IZR (2 ^ b - 1) / (val mx - val mn)) with (IZR (2 ^ b - 1)) in E by (field; lra). apply abs_le_inv in E.
    assert (IZR (2 ^ b - 1) < IZR (q mx + 1)) by (rewrite plus_IZR; lra). apply lt_IZR in H. lia. }
  intros i j Hi Hj. destruct (Hin i j Hi Hj) as (F & B). split; [unfold g; lia|]. split; [|split].
  - intros L. pose proof (MONO (f i j) mn F (proj1 K1) B ltac:(rewrite Rminus_diag_eq, Rabs_R0 by reflexivity; lra) L). unfold g. lia.
  - intros L. pose proof (MONO mx (f i j) (proj1 K2) F ltac:(apply Rabs_le; lra) B L). unfold g. lia.
  - intros i' j' Hi' Hj' L. destruct (Hin i' j' Hi' Hj') as (F' & B'). pose proof (MONO _ _ F F' B B' L). unfold g. lia.
Qed.
Print Assumptions C199_order.

(** C199: quantize() reports a range [mn, mx] that contains every cell and
    quantises to it. *)
Theorem C199_quantize (cfg : Cfg) (t : ityp) (M N : nat) (m : list f32) (quant : list Z) (f : nat -> nat -> f32) :
  (0 < M)%nat -> (0 < N)%nat -> repM M N m f ->
  (forall i j, (i < M)%nat -> (j < N)%nat -> fin (f i j)) ->
  exists mn mx, fin mn /\ fin mx /\
    (forall i j, (i < M)%nat -> (j < N)%nat -> val mn <= val (f i j) <= val mx) /\
    (exists i j, (i < M)%nat /\ (j < N)%nat /\ val mn = val (f i j)) /\
    (val mx = 0 \/ exists i j, (i < M)%nat /\ (j < N)%nat /\ val mx = val (f i j)) /\
    matF_quantize t M N m quant = (q <- matF_quantize_to t M N m quant mn mx ;; Ok (q, mn, mx)).
Proof.
  intros HM HN Hm Hf. destruct (C183_matrix_extrema cfg M N m f Hm) as ((mn & E1 & (L1 & L2) & L3) & (mx & E2 & (G1 & G2) & G3) & _).
  assert (Fmn : exists i j, (i < M)%nat /\ (j < N)%nat /\ fin mn /\ val mn = val (f i j)).
  { destruct L3 as [((i & j) & (Hi & Hj) & V)|(-> & V)].
    - cbn [fst snd] in *. exists i, j. split; [exact Hi|]. split; [exact Hj|]. rewrite (value_fin _ (Hf i j Hi Hj)) in V. apply value_number, V.
    - specialize (V (0%nat, 0%nat) (conj HM HN)). cbn [fst snd] in V. rewrite (value_fin _ (Hf _ _ HM HN)) in V. destruct V; discriminate. }
  assert (Fmx : fin mx /\ (val mx = 0 \/ exists i j, (i < M)%nat /\ (j < N)%nat /\ val mx = val (f i j))).
  { destruct G3 as [((i & j) & (Hi & Hj) & V)|(-> & V)].
    - cbn [fst snd] in *. rewrite (value_fin _ (Hf i j Hi Hj)) in V. apply value_number in V. destruct V as (V1 & V2). split; [exact V1|]. right. exists i, j. auto.
    - split; [reflexivity|left; reflexivity]. }
  destruct Fmn as (i0 & j0 & Hi0 & Hj0 & F1 & V1). destruct Fmx as (F2 & V2).
  exists mn, mx. split; [exact F1|]. split; [exact F2|]. split; [|split; [exists i0, j0; auto|split; [exact V2|]]].
  - intros i j Hi Hj. specialize (L2 (i, j) (conj Hi Hj)). specialize (G2 (i, j) (conj Hi Hj)). cbn [fst snd] in L2, G2.
    rewrite (value_fin _ (Hf i j Hi Hj)), (value_fin _ F1) in L2. rewrite (value_fin _ (Hf i j Hi Hj)), (value_fin _ F2) in G2.
    destruct L2 as [?|L2]; [discriminate|]. destruct G2 as [?|G2]; [discriminate|]. cbn in L2, G2. lra.
  - unfold matF_quantize. rewrite E1. cbn [bind]. rewrite E2. reflexivity.
Qed.
Print Assumptions C199_quantize.

(** C199: a range of one point divides zero by zero, and converting the NaN to
    long is undefined behaviour. *)
Lemma zero_form (a : f32) : fin a -> val a = 0 -> exists s, a = B754_zero 24 128 s.
Proof.
  destruct a as [s|s|s p H|s p e H]; intros F V; try discriminate F; [exists s; reflexivity|]. exfalso. unfold val in V. cbn in V.
  destruct s; cbn in V.
  - assert (F2R (Float radix2 (Z.neg p) e) < 0) by (apply F2R_lt_0; reflexivity). lra.
  - assert (0 < F2R (Float radix2 (Z.pos p) e)) by (apply F2R_gt_0; reflexivity). lra.
Qed.
Lemma self_diff (a b : f32) : fin a -> fin b -> val a = val b -> exists s, a -' b = B754_zero 24 128 s.
Proof.
  intros Fa Fb E. destruct (minus32_fin a b Fa Fb) as (F & V).
  { rewrite E, Rminus_diag_eq by reflexivity. rewrite round_0 by apply valid_rnd_N. rewrite Rabs_R0. apply bpow_gt_0. }
  apply zero_form; [exact F|]. rewrite V, E, Rminus_diag_eq by reflexivity. apply round_0, valid_rnd_N.
Qed.
Lemma cell_point (b : Z) (x mn mx : f32) : (1 <= b <= 20)%Z -> fin x -> fin mn -> fin mx -> val mn = val x -> val mx = val x ->
  quantizeF_cell (U b) (2 ^ b - 1) x mn mx = UB.
Proof.
  intros Hb Fx Fn Fm E1 E2. destruct (self_diff mx mn Fm Fn ltac:(lra)) as (s1 & D1). destruct (self_diff x mn Fx Fn ltac:(lra)) as (s2 & D2).
  pose proof (pow20 b Hb) as Hr. destruct (r_E (2 ^ b - 1) Hr) as (Kr & Vr). destruct (uro_r _ Hr) as (R1 & _).
  unfold quantizeF_cell. cbn [isigned]. rewrite D1, D2.
  assert (Z0 : exists s, b32_mult mode_NE (B754_zero 24 128 s2) (f32_of_Z (2 ^ b - 1)) = B754_zero 24 128 s).
  { destruct Kr as (Fr & _). destruct (f32_of_Z (2 ^ b - 1)) as [s|s|s p H|s p e H]; try discriminate Fr; eexists; reflexivity. }
  destruct Z0 as (s & ->). destruct s, s1; reflexivity.
Qed.
Theorem C199_point_range_refuted (b : Z) (M N : nat) (m : list f32) (quant : list Z) (f : nat -> nat -> f32) (mn mx : f32) :
  (1 <= b <= 20)%Z -> (0 < M)%nat -> (0 < N)%nat -> repM M N m f -> fin mn -> fin mx -> fin (f 0%nat 0%nat) ->
  val mn = val (f 0%nat 0%nat) -> val mx = val (f 0%nat 0%nat) ->
  matF_quantize_to (U b) M N m quant mn mx = UB.
Proof.
  intros Hb HM HN Hm F1 F2 F E1 E2. unfold matF_quantize_to. rewrite range_unsigned by lia. cbn [bind].
  rewrite for_step by nia. unfold rd. rewrite (proj2 Hm 0%nat 0%nat HM HN : nth_error m 0 = _). cbn [bind].
  rewrite (cell_point b _ mn mx Hb F F1 F2 E1 E2). reflexivity.
Qed.
(** So quantize() of a constant, non-negative matrix is undefined. *)
Theorem C199_constant_refuted (cfg : Cfg) (b : Z) (M N : nat) (m : list f32) (quant : list Z) (f : nat -> nat -> f32) (c : R) :
  (1 <= b <= 20)%Z -> (0 < M)%nat -> (0 < N)%nat -> repM M N m f -> 0 <= c ->
  (forall i j, (i < M)%nat -> (j < N)%nat -> fin (f i j) /\ val (f i j) = c) ->
  matF_quantize (U b) M N m quant = UB.
Proof.
  intros Hb HM HN Hm Hc Hf.
  destruct (C199_quantize cfg (U b) M N m quant f HM HN Hm (fun i j Hi Hj => proj1 (Hf i j Hi Hj))) as (mn & mx & F1 & F2 & B & (i & j & Hi & Hj & E1) & E2 & ->).
  destruct (Hf 0%nat 0%nat HM HN) as (F0 & V0). specialize (B 0%nat 0%nat HM HN).
  rewrite (C199_point_range_refuted b M N m quant f mn mx Hb HM HN Hm F1 F2 F0); [reflexivity| |].
  - rewrite E1, (proj2 (Hf i j Hi Hj)), V0. reflexivity.
  - destruct E2 as [E2|(i' & j' & Hi' & Hj' & E2)]; [|rewrite E2, (proj2 (Hf i' j' Hi' Hj')), V0; reflexivity]. lra.
Qed.
Print Assumptions C199_constant_refuted.

(** ** Signed targets *)
Lemma w_okf (mn mx : f32) (A : R) (x : f32) : range_ok mn mx A -> fin x -> Rabs (val x) <= 1024 * (val mx - val mn) ->
  okf32 103 x /\ Rabs (val x - val x) <= uro * Rabs (val x).
Proof.
  intros HR Fx Hx. destruct (range_okf mn mx A HR) as (K1 & K2 & HT). split.
  - split; [exact Fx|]. assert (E : bp 103 = 8192 * bp 90) by (change 103%Z with (13 + 90)%Z; rewrite (bpow_plus radix2 13 90); change (bp 13) with 8192; ring).
    rewrite E. destruct K1 as (_ & B1), K2 as (_ & B2). apply abs_le_inv in Hx, B1, B2. apply Rabs_le. lra.
  - rewrite Rminus_diag_eq, Rabs_R0 by reflexivity. apply Rmult_le_pos; [pose proof us; lra|apply Rabs_pos].
Qed.
Lemma cell_I (b : Z) (x mn mx : f32) (A : R) : (1 <= b <= 20)%Z -> range_ok mn mx A -> fin x -> Rabs (val x) <= 1024 * (val mx - val mn) ->
  quantizeF_cell (I b) (2 ^ b - 1) x mn mx = Ok (Z.min (Z.max (- 2 ^ (b - 1)) (Binary.Btrunc 53 1024 (q_of mn mx (2 ^ b - 1) x))) (2 ^ (b - 1) - 1)).
Proof.
  intros Hb HR Fx Hx. destruct (range_okf mn mx A HR) as (K1 & K2 & HT). pose proof (pow20 b Hb) as Hr.
  destruct (w_okf mn mx A x HR Fx Hx) as (Kw & Ew).
  destruct (q_of_E mn mx K1 K2 HT (2 ^ b - 1) Hr _ _ Kw Ew Hx) as (Fq & _ & Bq & _).
  destruct (PQuantF.long_q _ Fq Bq) as (EL & _).
  unfold quantizeF_cell. cbn [isigned]. unfold q_of, s_of in EL |- *. rewrite EL. cbn [bind].
  pose proof (pow2_le b ltac:(lia)). pose proof (pow2_ge b ltac:(lia)). assert (K : (2 ^ 63 > 0)%Z) by reflexivity.
  assert (E : (2 ^ b = 2 * 2 ^ (b - 1))%Z) by (rewrite <- Z.pow_succ_r by lia; f_equal; lia).
  f_equal. cbn [imax imin isigned ibits]. rewrite !(iconv_in tlong) by (try reflexivity; change (imin tlong) with (- 2 ^ 63)%Z; change (imax tlong) with (2 ^ 63 - 1)%Z; lia).
  apply iconv_in; [cbn; lia|]. cbn [imin imax isigned ibits]. lia.
Qed.
Lemma near_I (b : Z) (x mn mx : f32) (A : R) : (1 <= b <= 20)%Z -> range_ok mn mx A -> fin x -> Rabs (val x) <= (val mx - val mn) / 2 ->
  let k := Z.min (Z.max (- 2 ^ (b - 1)) (Binary.Btrunc 53 1024 (q_of mn mx (2 ^ b - 1) x))) (2 ^ (b - 1) - 1) in
  let y := val x * IZR (2 ^ b - 1) / (val mx - val mn) in
  (- 2 ^ (b - 1) <= k <= 2 ^ (b - 1) - 1)%Z /\ Rabs (IZR k - y) <= 3 / 2 + 7 * uro * IZR (2 ^ b - 1) /\
  (0 <= val x -> Rabs (IZR k - y) <= / 2 + 7 * uro * IZR (2 ^ b - 1)).
Proof.
  intros Hb HR Fx Hx. destruct (range_okf mn mx A HR) as (K1 & K2 & HT). pose proof (pow20 b Hb) as Hr. pose proof (T0 mn mx HT) as PT.
  pose proof (pow2_ge b ltac:(lia)) as B2.
  assert (E : (2 ^ b = 2 * 2 ^ (b - 1))%Z) by (rewrite <- Z.pow_succ_r by lia; f_equal; lia).
  set (r := (2 ^ b - 1)%Z) in *. set (hi := (2 ^ (b - 1))%Z) in *.
  assert (RH : IZR r = 2 * IZR hi - 1) by (rewrite <- mult_IZR, <- minus_IZR; f_equal; lia).
  assert (Hx2 : Rabs (val x) <= 1024 * (val mx - val mn)) by lra.
  destruct (w_okf mn mx A x HR Fx Hx2) as (Kw & Ew).
  destruct (q_of_E mn mx K1 K2 HT r Hr _ _ Kw Ew Hx2) as (Fq & _ & Bq & N). specialize (N ltac:(lra)).
  destruct (uro_r r Hr) as (R1 & R2). set (y := val x * IZR r / (val mx - val mn)) in *. intros k. cbv zeta.
  assert (P : 0 < IZR r / (val mx - val mn)) by (apply Rdiv_lt_0_compat; lra).
  assert (D : y = val x * (IZR r / (val mx - val mn))) by (unfold y; field; lra).
  assert (Y : Rabs y <= IZR hi - / 2).
  { rewrite D, Rabs_mult, (Rabs_pos_eq _ (Rlt_le _ _ P)). replace (IZR hi - / 2) with ((val mx - val mn) / 2 * (IZR r / (val mx - val mn))) by (rewrite RH; field; lra).
    apply Rmult_le_compat_r; lra. }
  assert (Y0 : 0 <= val x -> 0 <= y) by (intros X; rewrite D; apply Rmult_le_pos; lra).
  apply abs_le_inv in N, Y. set (q := q_of mn mx r x) in *. set (j := Binary.Btrunc 53 1024 q) in *. fold hi in k.
  assert (H0 : (1 <= hi)%Z) by lia. assert (H1 : 1 <= IZR hi) by (apply (IZR_le 1); exact H0).
  split; [unfold k; lia|].
  assert (CASE : (0 <= val64 q /\ IZR j <= val64 q < IZR j + 1) \/ (val64 q < 0 /\ val64 q <= IZR j < val64 q + 1)).
  { destruct (Rle_dec 0 (val64 q)) as [L|L]; [left|right]; (split; [lra|]); [apply (PQuantF.trunc_pos q L)|apply (PQuantF.trunc_neg q); lra]. }
  assert (JL : (- hi <= j)%Z).
  { assert (IZR (- hi) < IZR (j + 1)) by (rewrite opp_IZR, plus_IZR; destruct CASE; lra). apply lt_IZR in H. lia. }
  assert (KJ : k = j \/ ((hi <= j)%Z /\ k = (hi - 1)%Z)) by (unfold k; lia).
  assert (HI : IZR (hi - 1) = IZR hi - 1) by (rewrite minus_IZR; reflexivity).
  destruct KJ as [->|(J & ->)].
  - split; [apply Rabs_le; destruct CASE; lra|]. intros X. specialize (Y0 X). apply Rabs_le. destruct CASE; lra.
  - apply IZR_le in J. rewrite HI. split; [apply Rabs_le; destruct CASE; lra|]. intros _. apply Rabs_le. destruct CASE; lra.
Qed.
Lemma deq_I (b : Z) (k : Z) (x mn mx : f32) (A B : R) : (1 <= b <= 20)%Z -> range_ok mn mx A -> (- 2 ^ (b - 1) <= k <= 2 ^ (b - 1) - 1)%Z ->
  val mn <= val x <= val mx -> Rabs (IZR k / IZR (2 ^ b - 1) * (val mx - val mn) - val x) <= B ->
  let z := dequantizeF_cell (I b) (2 ^ b - 1) k mn mx in
  fin z /\ val mn <= val z <= val mx /\ Rabs (val z - val x) <= 7 * uro * A + B.
Proof.
  intros Hb HR Hk Hx HB. destruct (range_okf mn mx A HR) as (K1 & K2 & HT). pose proof (pow20 b Hb) as Hr. pose proof (T0 mn mx HT) as PT.
  assert (E : (2 ^ b = 2 * 2 ^ (b - 1))%Z) by (rewrite <- Z.pow_succ_r by lia; f_equal; lia).
  assert (P1 : (1 <= 2 ^ (b - 1))%Z) by (pose proof (pow2_ge b ltac:(lia)); lia).
  pose proof HR as (_ & _ & A1 & A2 & A3 & _).
  destruct (d_E mn mx K1 K2 HT (2 ^ b - 1) Hr k A ltac:(lia) A1 A2) as (Kp & Ep).
  apply (clamp_E mn mx K1 K2 _ (val x)); [apply Kp|exact Hx|].
  match goal with |- Rabs (?a - ?c) <= _ => replace (a - c) with ((a - IZR k / IZR (2 ^ b - 1) * (val mx - val mn)) + (IZR k / IZR (2 ^ b - 1) * (val mx - val mn) - c)) by ring end.
  eapply Rle_trans; [apply Rabs_triang|]. apply Rplus_le_compat; [exact Ep|exact HB].
Qed.
(** C200: signed targets of b <= 20 bits, for cells of [mn, mx] whose magnitude is
    at most half the range: one and a half steps, half a step if not negative,
    plus 23 u max(|mn|, |mx|); the order is kept. *)
Theorem C200_signed_roundtrip (b : Z) (M N : nat) (m out : list f32) (quant : list Z) (f : nat -> nat -> f32) (mn mx : f32) (A : R) :
  (1 <= b <= 20)%Z -> repM M N m f -> length quant = (M * N)%nat -> length out = (M * N)%nat -> range_ok mn mx A ->
  (forall i j, (i < M)%nat -> (j < N)%nat -> fin (f i j) /\ val mn <= val (f i j) <= val mx /\ Rabs (val (f i j)) <= (val mx - val mn) / 2) ->
  let step := (val mx - val mn) / IZR (2 ^ b - 1) in
  exists quant' out' (g : nat -> nat -> Z) (h : nat -> nat -> f32),
  matF_quantize_to (I b) M N m quant mn mx = Ok quant' /\ repM M N quant' g /\
  matF_dequantize (I b) M N quant' out mn mx = Ok out' /\ repM M N out' h /\
  forall i j, (i < M)%nat -> (j < N)%nat ->
    (- 2 ^ (b - 1) <= g i j <= 2 ^ (b - 1) - 1)%Z /\ fin (h i j) /\ val mn <= val (h i j) <= val mx /\
    Rabs (val (h i j) - val (f i j)) <= 3 / 2 * step + 23 / 2 ^ 24 * A /\
    (0 <= val (f i j) -> Rabs (val (h i j) - val (f i j)) <= step / 2 + 23 / 2 ^ 24 * A) /\
    (forall i' j', (i' < M)%nat -> (j' < N)%nat -> val (f i j) <= val (f i' j') -> (g i j <= g i' j')%Z).
Proof.
  intros Hb Hm Lq Lo HR Hin step. destruct (range_okf mn mx A HR) as (K1 & K2 & HT). pose proof (pow20 b Hb) as Hr. pose proof (T0 mn mx HT) as PT.
  set (g := fun i j => Z.min (Z.max (- 2 ^ (b - 1)) (Binary.Btrunc 53 1024 (q_of mn mx (2 ^ b - 1) (f i j)))) (2 ^ (b - 1) - 1)).
  set (h := fun i j => dequantizeF_cell (I b) (2 ^ b - 1) (g i j) mn mx).
  pose proof (fun i j Hi Hj => near_I b (f i j) mn mx A Hb HR (proj1 (Hin i j Hi Hj)) (proj2 (proj2 (Hin i j Hi Hj)))) as C. cbv zeta in C.
  pose proof (repM_nth M N quant 0%Z Lq) as Hg0. pose proof (repM_nth M N out f32_zero Lo) as Hh0.
  assert (W : forall i j, (i < M)%nat -> (j < N)%nat -> Rabs (val (f i j)) <= 1024 * (val mx - val mn)) by (intros i j Hi Hj; destruct (Hin i j Hi Hj) as (_ & _ & B); lra).
  assert (HQ : returns (matF_quantize_to (I b) M N m quant mn mx) (fun q => repM M N q g)).
  { unfold matF_quantize_to. rewrite range_signed by lia. cbn [bind].
    apply (iter_fill M N quant (fun i j => nth (j * M + i) quant 0%Z) g); [exact Hg0|]. intros r c q' Hr' Hc Lq' _.
    unfold rd. rewrite (proj2 Hm r c Hr' Hc). cbn [bind]. destruct (Hin r c Hr' Hc) as (F & _).
    rewrite (cell_I b (f r c) mn mx A Hb HR F (W r c Hr' Hc)). reflexivity. }
  destruct HQ as (quant' & EQ & HQ).
  assert (HO : returns (matF_dequantize (I b) M N quant' out mn mx) (fun o => repM M N o h)).
  { unfold matF_dequantize. rewrite range_signed by lia. cbn [bind].
    apply (iter_fill M N out (fun i j => nth (j * M + i) out f32_zero) h); [exact Hh0|]. intros r c o' Hr' Hc Lo' _.
    unfold rd. rewrite (proj2 HQ r c Hr' Hc). reflexivity. }
  destruct HO as (out' & EO & HO).
  exists quant', out', g, h. split; [exact EQ|]. split; [exact HQ|]. split; [exact EO|]. split; [exact HO|].
  intros i j Hi Hj. destruct (C i j Hi Hj) as (B & E & E0). fold (g i j) in B, E, E0. destruct (Hin i j Hi Hj) as (F & R & _).
  set (r := (2 ^ b - 1)%Z) in *. destruct (uro_r r Hr) as (R1 & R2).
  assert (TA : val mx - val mn <= 2 * A) by (destruct HR as (_ & _ & A1 & A2 & _); apply abs_le_inv in A1, A2; lra).
  assert (P : 0 < step) by (apply Rdiv_lt_0_compat; lra).
  assert (UT : uro * (val mx - val mn) <= uro * (2 * A)) by (apply Rmult_le_compat_l; [pose proof us; lra|exact TA]).
  assert (U0 : 0 <= uro * A) by (apply Rmult_le_pos; [pose proof us; lra|lra]).
  assert (D : forall K, Rabs (IZR (g i j) - val (f i j) * IZR r / (val mx - val mn)) <= K + 7 * uro * IZR r ->
    Rabs (IZR (g i j) / IZR r * (val mx - val mn) - val (f i j)) <= K * step + 14 * (uro * A)).
  { intros K HK. replace (IZR (g i j) / IZR r * (val mx - val mn) - val (f i j)) with ((IZR (g i j) - val (f i j) * IZR r / (val mx - val mn)) * step) by (unfold step; fold r; field; lra).
    rewrite Rabs_mult, (Rabs_pos_eq step) by lra. apply (Rmult_le_compat_r step) in HK; [|lra].
    assert (RS : IZR r * step = val mx - val mn) by (unfold step; fold r; field; lra).
    replace ((K + 7 * uro * IZR r) * step) with (K * step + 7 * (uro * (IZR r * step))) in HK by ring. rewrite RS in HK. lra. }
  change (23 / 2 ^ 24 * A) with (23 * / 2 ^ 24 * A). change (/ 2 ^ 24) with uro.
  destruct (deq_I b (g i j) (f i j) mn mx A _ Hb HR B R (D (3 / 2) E)) as (Fz & Bz & Ez). fold r in Fz, Bz, Ez. fold (h i j) in Fz, Bz, Ez.
  split; [exact B|]. split; [exact Fz|]. split; [exact Bz|]. split; [lra|]. split.
  - intros X. destruct (deq_I b (g i j) (f i j) mn mx A _ Hb HR B R (D (/ 2) (E0 X))) as (_ & _ & Ez2). fold r in Ez2. fold (h i j) in Ez2. lra.
  - intros i' j' Hi' Hj' L. destruct (Hin i' j' Hi' Hj') as (F' & _).
    destruct (w_okf mn mx A (f i j) HR F (W i j Hi Hj)) as (Ka & Ea). destruct (w_okf mn mx A (f i' j') HR F' (W i' j' Hi' Hj')) as (Kb & Eb).
    assert (Q : (Binary.Btrunc 53 1024 (q_of mn mx r (f i j)) <= Binary.Btrunc 53 1024 (q_of mn mx r (f i' j')))%Z).
    { apply PQuantF.trunc_mono. apply (q_of_mono mn mx K1 K2 HT r Hr _ _ _ _ Ka Kb Ea Eb (W i j Hi Hj) (W i' j' Hi' Hj') L). }
    unfold g. lia.
Qed.
Print Assumptions C200_signed_roundtrip.


(** 0, 1/2 and 1 through eight unsigned bits; 1/2 in [-1, 1] through signed ones. *)
Example C199_hypotheses_met : range_ok f32_zero f32_one 1 /\ (fin f32_half /\ val f32_zero <= val f32_half <= val f32_one) /\
  matF_quantize_to (U 8) 1 3 [f32_zero; f32_half; f32_one] [0; 0; 0]%Z f32_zero f32_one = Ok [0; 128; 255]%Z /\
  match matF_dequantize (U 8) 1 3 [0; 128; 255]%Z [f32_one; f32_one; f32_one] f32_zero f32_one with Ok q => map bits_of_b32 q = [0; 1056997505; 1065353216]%Z | _ => False end.
Proof.
  assert (P : 1 <= 2 ^ 90) by (apply pow_R1_Rle; lra).
  assert (P2 : / 2 ^ 90 <= 1) by (rewrite <- Rinv_1; apply Rinv_le_contravar; lra).
  assert (V0 : val f32_zero = 0) by reflexivity.
  split. { repeat split; rewrite ?V0, ?val_one, ?Rabs_R0, ?Rabs_R1; try reflexivity; lra. }
  split. { split; [reflexivity|]. rewrite V0, val_one, val_half. lra. }
  split; vm_compute; reflexivity.
Qed.
Example C200_hypotheses_met : range_ok (b32_opp f32_one) f32_one 1 /\ (fin f32_half /\ val (b32_opp f32_one) <= val f32_half <= val f32_one /\ Rabs (val f32_half) <= (val f32_one - val (b32_opp f32_one)) / 2) /\
  matF_quantize_to (I 8) 1 2 [f32_half; b32_opp f32_half] [0; 0]%Z (b32_opp f32_one) f32_one = Ok [64; -63]%Z.
Proof.
  assert (P : 1 <= 2 ^ 90) by (apply pow_R1_Rle; lra).
  assert (P2 : / 2 ^ 90 <= 1) by (rewrite <- Rinv_1; apply Rinv_le_contravar; lra).
  assert (V1 : val (b32_opp f32_one) = -1) by (unfold val, b32_opp; rewrite B2R_Bopp; fold (val f32_one); rewrite val_one; reflexivity).
  split. { repeat split; rewrite ?V1, ?val_one, ?Rabs_R1; try reflexivity; try lra. rewrite Rabs_left; lra. }
  split. { split; [reflexivity|]. rewrite V1, val_one, val_half. rewrite Rabs_pos_eq by lra. lra. }
  vm_compute. reflexivity.
Qed.
