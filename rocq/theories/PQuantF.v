(** Properties C197, C198: quantize and dequantize in double. *)
From Coq Require Import ZArith Reals Lra Psatz List.
From Flocq Require Import Core.Core IEEE754.BinarySingleNaN IEEE754.Binary IEEE754.Bits.
From Verif Require Import InstF MMatrix MNum MLit MQuantF LMatrix PNum PFloat LFloat PFloat2 LErr Spec10 LExt PRayF LRot LDist PDist LQuant PNan.
Import ListNotations.
Local Open Scope R_scope.
Local Open Scope list_scope.
Local Existing Instance F64Scalar.
Local Notation bp := (bpow radix2).
Local Notation rnd := (round radix2 (FLT_exp (-1074) 53) (Znearest (fun x => negb (Z.even x)))).
Local Notation "a *' b" := (b64_mult mode_NE a b) (at level 40, left associativity).
Local Notation "a /' b" := (b64_div mode_NE a b) (at level 40, left associativity).
Local Notation "a +' b" := (b64_plus mode_NE a b) (at level 50, left associativity).
Local Notation "a -' b" := (b64_minus mode_NE a b) (at level 50, left associativity).

(** ** Conversions *)
Lemma of_Z_exact (z : Z) : (Z.abs z < 2 ^ 53)%Z -> fin (f64_of_Z z) /\ val (f64_of_Z z) = IZR z.
Proof.
  intros Hz. unfold f64_of_Z.
  pose proof (binary_normalize_correct 53 1024 eq_refl eq_refl mode_NE z 0 false) as C.
  assert (EX : F2R (beta := radix2) {| Fnum := z; Fexp := 0 |} = IZR z) by (unfold F2R; cbn; lra).
  cbn [round_mode] in C. change (SpecFloat.fexp 53 1024) with (FLT_exp (-1074) 53) in C.
  assert (G : generic_format radix2 (FLT_exp (-1074) 53) (F2R (beta := radix2) {| Fnum := z; Fexp := 0 |} : R)).
  { apply generic_format_FLT. apply (FLT_spec _ _ _ _ (Float radix2 z 0)); [reflexivity| |discriminate]. cbn [Fnum]. exact Hz. }
  rewrite (round_generic _ _ _ _ G), EX in C. rewrite Rlt_bool_true in C.
  2:{ eapply Rlt_trans; [|apply (bpow_lt radix2 53 1024); lia]. rewrite <- abs_IZR. change (bpow radix2 53) with (IZR (2 ^ 53)). apply IZR_lt. exact Hz. }
  destruct C as (C1 & C2 & _). split; [exact C2|exact C1].
Qed.
Lemma trunc_val (x : f64) : IZR (Binary.Btrunc 53 1024 x) = IZR (Ztrunc (val x)).
Proof.
  rewrite Binary.Btrunc_correct by reflexivity. unfold round, F2R, scaled_mantissa, cexp, FIX_exp. cbn [Fnum Fexp]. change (bpow radix2 (- 0)) with 1. change (bpow radix2 0) with 1. rewrite !Rmult_1_r. reflexivity.
Qed.
Lemma trunc_pos (x : f64) : 0 <= val x -> let k := Binary.Btrunc 53 1024 x in IZR k <= val x < IZR k + 1.
Proof.
  intros H k. unfold k. rewrite trunc_val. rewrite Ztrunc_floor by exact H. split; [apply Zfloor_lb|apply Zfloor_ub].
Qed.
Lemma trunc_neg (x : f64) : val x <= 0 -> let k := Binary.Btrunc 53 1024 x in val x <= IZR k < val x + 1.
Proof.
  intros H k. unfold k. rewrite trunc_val. rewrite Ztrunc_ceil by exact H. split; [apply Zceil_ub|apply Zceil_lb].
Qed.
Lemma trunc_mono (x y : f64) : val x <= val y -> (Binary.Btrunc 53 1024 x <= Binary.Btrunc 53 1024 y)%Z.
Proof. intros H. apply le_IZR. rewrite !trunc_val. apply IZR_le, Ztrunc_le, H. Qed.
Lemma half_val : val f64_half = / 2. Proof. exact val_half. Qed.
(** Division with a bounded quotient. *)
Lemma div_E (a b : f64) (i : Z) : fin a -> val b <> 0 -> Rabs (val a / val b) <= bp i -> (-1074 <= i < 1024)%Z ->
  okf i (a /' b) /\ val (a /' b) = rnd (val a / val b) /\ Rabs (val (a /' b) - val a / val b) <= uro * Rabs (val a / val b) + eta.
Proof.
  intros Fa Hb HB Hi.
  assert (RB : Rabs (rnd (val a / val b)) <= bp i) by (apply rnd_le; [lia|exact HB]).
  destruct (div_fin a b Fa Hb) as (F & E). { eapply Rle_lt_trans; [exact RB|]. apply bpow_lt. lia. }
  split; [split; [exact F|rewrite E; exact RB]|]. split; [exact E|]. rewrite E. unfold Rdiv.
  destruct (mult_error (val a) (/ val b)) as (d & e & Hd & He & ->).
  match goal with |- Rabs (?x * (1 + d) + e - ?x) <= _ => replace (x * (1 + d) + e - x) with (d * x + e) by ring end.
  apply tri; [|exact He]. rewrite Rabs_mult. apply Rmult_le_compat_r; [apply Rabs_pos|exact Hd].
Qed.

Lemma minus_E (i : Z) (a b : f64) : okf i a -> okf i b -> (-1074 <= i + 1 < 1024)%Z ->
  okf (i + 1) (a -' b) /\ val (a -' b) = rnd (val a - val b) /\ Rabs (val (a -' b) - (val a - val b)) <= uro * Rabs (val a - val b).
Proof.
  intros Ha Hb Hi. destruct (okf_minus i (i + 1) a b Ha Hb eq_refl Hi) as (K & E). split; [exact K|]. split; [|exact E].
  apply minus_fin; [apply Ha|apply Hb|]. eapply Rle_lt_trans; [apply (rnd_le _ (i + 1)); [lia|]|apply bpow_lt; lia].
  destruct Ha as (_ & Ba), Hb as (_ & Bb). replace (i + 1)%Z with (1 + i)%Z by lia. rewrite bpow_plus. change (bp 1) with 2.
  apply abs_le_inv in Ba, Bb. apply Rabs_le. lra.
Qed.
Lemma plus_E (i : Z) (a b : f64) : okf i a -> okf i b -> (-1074 <= i + 1 < 1024)%Z ->
  okf (i + 1) (a +' b) /\ val (a +' b) = rnd (val a + val b) /\ Rabs (val (a +' b) - (val a + val b)) <= uro * Rabs (val a + val b).
Proof.
  intros Ha Hb Hi. destruct (okf_plus i (i + 1) a b Ha Hb eq_refl Hi) as (K & E). split; [exact K|]. split; [|exact E].
  apply plus_fin; [apply Ha|apply Hb|]. eapply Rle_lt_trans; [apply (rnd_le _ (i + 1)); [lia|]|apply bpow_lt; lia].
  destruct Ha as (_ & Ba), Hb as (_ & Bb). replace (i + 1)%Z with (1 + i)%Z by lia. rewrite bpow_plus. change (bp 1) with 2.
  apply abs_le_inv in Ba, Bb. apply Rabs_le. lra.
Qed.
Lemma mult_E (i j : Z) (a b : f64) : okf i a -> okf j b -> (-1074 <= i + j < 1024)%Z ->
  okf (i + j) (a *' b) /\ val (a *' b) = rnd (val a * val b) /\ Rabs (val (a *' b) - val a * val b) <= uro * Rabs (val a * val b) + eta.
Proof.
  intros Ha Hb Hi. destruct (okf_mult i j (i + j) a b Ha Hb eq_refl Hi) as (K & E). split; [exact K|]. split; [|exact E].
  apply mult_fin; [apply Ha|apply Hb|]. eapply Rle_lt_trans; [apply (rnd_le _ (i + j)); [lia|]|apply bpow_lt; lia].
  destruct Ha as (_ & Ba), Hb as (_ & Bb). rewrite bpow_plus. apply prod_le; assumption.
Qed.
Lemma half_ok : okf (-1) f64_half.
Proof. split; [reflexivity|]. rewrite half_val, Rabs_pos_eq by lra. change (bp (-1)) with (/ 2). lra. Qed.
Lemma uro_r (r : Z) : (1 <= r < 2 ^ 49)%Z -> 1 <= IZR r /\ 7 * uro * IZR r <= 7 / 16.
Proof.
  intros (H1 & H2). apply (IZR_le 1) in H1. split; [exact H1|]. apply IZR_lt in H2. rewrite uro_val.
  change (2 ^ 49)%Z with 562949953421312%Z in H2. lra.
Qed.

Section Q.
Context (mn mx : f64) (Hmn : okf 900 mn) (Hmx : okf 900 mx) (HT : bp (-900) <= val mx - val mn) (r : Z) (Hr : (1 <= r < 2 ^ 49)%Z).
Let T := val mx - val mn.
Let t := mx -' mn.
Lemma T0 : 0 < T. Proof. pose proof (bpow_gt_0 radix2 (-900)). unfold T. lra. Qed.
Lemma eT0 : eta <= uro * bp (-900) / 2000.
Proof.
  rewrite <- eta_bpow. pose proof (bpow_ge_0 radix2 (-1074)) as G0. apply Rle_trans with (bp (-1074)); [lra|].
  change (-1074)%Z with (-174 + -900)%Z. rewrite (bpow_plus radix2 (-174) (-900)). pose proof (bpow_gt_0 radix2 (-900)) as G.
  assert (L : bp (-174) <= uro / 2000).
  { apply Rle_trans with (bp (-100)); [apply bpow_le; lia|]. rewrite uro_val. cbn. lra. }
  apply (Rmult_le_compat_r (bp (-900))) in L; [|lra]. lra.
Qed.
Lemma eT : eta <= uro * (T / 2) / 1000.
Proof. pose proof eT0. assert (uro * bp (-900) <= uro * T) by (apply Rmult_le_compat_l; [pose proof us; lra|exact HT]). lra. Qed.
Lemma eT1 : eta <= uro * T / 1000.
Proof. pose proof eT. pose proof T0. assert (0 <= uro * T) by (apply Rmult_le_pos; [pose proof us; lra|lra]). lra. Qed.
Lemma t_E : okf 901 t /\ Rabs (val t - T) <= uro * T /\ 0 < val t.
Proof.
  destruct (minus_E 900 mx mn Hmx Hmn ltac:(lia)) as (K & _ & E). pose proof T0 as P. fold T in E. fold t in K, E. rewrite (Rabs_pos_eq T) in E by lra.
  split; [exact K|]. split; [exact E|]. pose proof us. assert (uro * T <= / 1000000 * T) by (apply Rmult_le_compat_r; lra). apply abs_le_inv in E. lra.
Qed.
Lemma r_E : okf 49 (f64_of_Z r) /\ val (f64_of_Z r) = IZR r.
Proof.
  destruct (of_Z_exact r) as (F & V). { change (2 ^ 53)%Z with (16 * 2 ^ 49)%Z. lia. }
  split; [|exact V]. split; [exact F|]. rewrite V, Rabs_pos_eq by (apply (IZR_le 0); lia). change (bp 49) with (IZR (2 ^ 49)). apply IZR_le. lia.
Qed.
Definition q_of (w' : f64) : f64 := ((w' *' f64_of_Z r) /' t) +' f64_half.
Lemma q_of_E (w : R) (w' : f64) : okf 913 w' -> Rabs (val w' - w) <= uro * Rabs w -> Rabs w <= 1024 * T ->
  fin (q_of w') /\ val (q_of w') = rnd (rnd (rnd (val w' * IZR r) / val t) + / 2) /\ Rabs (val (q_of w')) <= bp 62 /\
  (Rabs w <= T -> Rabs (val (q_of w') - (w * IZR r / T + / 2)) <= 7 * uro * IZR r).
Proof.
  intros Kw Ew Bw. destruct t_E as (Kt & Et & Pt). destruct r_E as (Kr & Vr). pose proof T0 as PT. destruct (uro_r r Hr) as (R1 & R2).
  destruct (mult_E 913 49 w' (f64_of_Z r) Kw Kr ltac:(lia)) as (Kp & Vp & Ep). rewrite Vr in Vp, Ep. set (p := w' *' f64_of_Z r) in *.
  assert (EW : Rabs (val w' / 1024 - w / 1024) <= uro * Rabs (w / 1024)).
  { replace (val w' / 1024 - w / 1024) with ((val w' - w) * / 1024) by field. unfold Rdiv. rewrite !Rabs_mult, (Rabs_pos_eq (/ 1024)) by lra. lra. }
  assert (BW : Rabs (w / 1024) <= T) by (unfold Rdiv; rewrite Rabs_mult, (Rabs_pos_eq (/ 1024)) by lra; lra).
  assert (EP : Rabs (val p - val w' / 1024 * (1024 * IZR r)) <= uro * Rabs (val w' / 1024 * (1024 * IZR r)) + eta).
  { replace (val w' / 1024 * (1024 * IZR r)) with (val w' * IZR r) by field. exact Ep. }
  destruct (q_val uro eta us es (w / 1024) (val w' / 1024) (1024 * IZR r) (val p) T (val t) (val (p /' t)) 0 ltac:(lra) PT BW eT1 EW EP Et) as (Q & _).
  assert (QB : Rabs (val p / val t) <= bp 60).
  { eapply Rle_trans; [exact Q|]. destruct Hr as (_ & H2). apply IZR_lt in H2. change (bp 60) with (IZR (2 ^ 60)). change (2 ^ 49)%Z with 562949953421312%Z in H2. change (2 ^ 60)%Z with 1152921504606846976%Z. lra. }
  destruct (div_E p t 60 (proj1 Kp) ltac:(lra) QB ltac:(lia)) as (Ks & Vs & Es).
  destruct (plus_E 60 (p /' t) f64_half Ks (okf_le _ 60 _ half_ok ltac:(lia)) ltac:(lia)) as (Kv & Vv & Ev). rewrite half_val in Vv, Ev.
  split; [apply Kv|]. split; [unfold q_of; fold p; rewrite Vv, Vs, Vp; reflexivity|]. split; [eapply Rle_trans; [apply Kv|apply bpow_le; lia]|].
  intros Bw2. destruct (q_val uro eta us es w (val w') (IZR r) (val p) T (val t) (val (p /' t)) (val (q_of w')) R1 PT Bw2 eT1 Ew Ep Et) as (_ & Q2).
  destruct (Q2 Es) as (_ & Q3). exact (Q3 Ev).
Qed.
Lemma q_of_mono (w1 w2 : R) (a b : f64) : okf 913 a -> okf 913 b -> Rabs (val a - w1) <= uro * Rabs w1 -> Rabs (val b - w2) <= uro * Rabs w2 ->
  Rabs w1 <= 1024 * T -> Rabs w2 <= 1024 * T -> val a <= val b -> val (q_of a) <= val (q_of b).
Proof.
  intros Ka Kb Ea Eb Ba Bb H. destruct (q_of_E w1 a Ka Ea Ba) as (_ & -> & _). destruct (q_of_E w2 b Kb Eb Bb) as (_ & -> & _).
  destruct t_E as (_ & _ & Pt). destruct (uro_r r Hr) as (R1 & _).
  apply rnd_mono, Rplus_le_compat_r, rnd_mono. apply Rmult_le_compat_r; [left; apply Rinv_0_lt_compat, Pt|]. apply rnd_mono, Rmult_le_compat_r; lra.
Qed.
Lemma long_q (x : f64) : fin x -> Rabs (val x) <= bp 62 -> long_of_f64 x = Ok (Binary.Btrunc 53 1024 x) /\ (- 2 ^ 62 - 1 < Binary.Btrunc 53 1024 x < 2 ^ 62 + 1)%Z.
Proof.
  intros F B. change (bp 62) with (IZR (2 ^ 62)) in B. apply abs_le_inv in B.
  assert (L : (- 2 ^ 62 - 1 < Binary.Btrunc 53 1024 x < 2 ^ 62 + 1)%Z).
  { destruct (Rle_dec 0 (val x)) as [H|H].
    - pose proof (trunc_pos x H) as K. cbv zeta in K. split; apply lt_IZR; [rewrite minus_IZR, opp_IZR|rewrite plus_IZR]; lra.
    - pose proof (trunc_neg x ltac:(lra)) as K. cbv zeta in K. split; apply lt_IZR; [rewrite minus_IZR, opp_IZR|rewrite plus_IZR]; lra. }
  split; [|exact L]. unfold long_of_f64. unfold fin in F. rewrite F. apply long_op_ok. change (2 ^ 63)%Z with (2 * 2 ^ 62)%Z. change (2 ^ 62)%Z with 4611686018427387904%Z in *. lia.
Qed.
(** The clamp of dequantize. *)
Lemma clamp_E (y : f64) (x B : R) : fin y -> val mn <= x <= val mx -> Rabs (val y - x) <= B ->
  let z := if Bltb mn y then y else mn in let z := if Bltb mx z then mx else z in
  fin z /\ val mn <= val z <= val mx /\ Rabs (val z - x) <= B.
Proof.
  intros Fy Hx HB. cbv zeta. apply abs_le_inv in HB. destruct Hmn as (Fn & _), Hmx as (Fx & _).
  destruct (Bltb mn y) eqn:E1; [apply Bltb_fin in E1; try assumption|apply Bltb_fin_false in E1; try assumption].
  - destruct (Bltb mx y) eqn:E2; [apply Bltb_fin in E2; try assumption|apply Bltb_fin_false in E2; try assumption]; (split; [assumption|]; split; [lra|apply Rabs_le; lra]).
  - destruct (Bltb mx mn) eqn:E2; [apply Bltb_fin in E2; try assumption; lra|apply Bltb_fin_false in E2; try assumption]. split; [assumption|]. split; [lra|apply Rabs_le; lra].
Qed.
(** Dequantisation of k. *)
Lemma d_E (k : Z) (A : R) : (Z.abs k <= r)%Z -> Rabs (val mn) <= A -> Rabs (val mx) <= A ->
  let p := (f64_of_Z k /' f64_of_Z r) *' t in
  okf 901 p /\ Rabs (val p - IZR k / IZR r * T) <= 7 * uro * A.
Proof.
  intros Hk A1 A2 p. destruct t_E as (Kt & Et & Pt). destruct r_E as (Kr & Vr). pose proof T0 as PT. destruct (uro_r r Hr) as (R1 & R2).
  destruct (of_Z_exact k) as (Fk & Vk). { change (2 ^ 53)%Z with (16 * 2 ^ 49)%Z. lia. }
  assert (C1 : Rabs (IZR k / IZR r) <= 1).
  { unfold Rdiv. rewrite Rabs_mult, (Rabs_pos_eq (/ IZR r)) by (left; apply Rinv_0_lt_compat; lra). rewrite <- abs_IZR.
    apply (Rmult_le_reg_r (IZR r)); [lra|]. rewrite Rmult_assoc, Rinv_l, Rmult_1_r, Rmult_1_l by lra. apply IZR_le, Hk. }
  destruct (div_E (f64_of_Z k) (f64_of_Z r) 0 Fk ltac:(lra) ltac:(rewrite Vk, Vr; exact C1) ltac:(lia)) as (Kd & _ & Ed). rewrite Vk, Vr in Ed.
  destruct (mult_E 0 901 _ _ Kd Kt ltac:(lia)) as (Kp & _ & Ep). fold p in Kp, Ep.
  split; [exact Kp|]. assert (TA : T <= 2 * A) by (apply abs_le_inv in A1, A2; unfold T; lra).
  assert (EA : eta <= uro * A / 1000).
  { pose proof eT. assert (uro * (T / 2) <= uro * A) by (apply Rmult_le_compat_l; [pose proof us; lra|lra]). lra. }
  apply (d_val uro eta us es _ (val (f64_of_Z k /' f64_of_Z r)) T (val t) (val p) A C1 PT TA EA Ed Et Ep).
Qed.
End Q.

Local Notation U b := {| ibits := b; isigned := false |}.
Local Notation I b := {| ibits := b; isigned := true |}.
Lemma bp900 : bp 900 = 2 ^ 900. Proof. rewrite (bpow_powerRZ radix2). change 900%Z with (Z.of_nat 900). rewrite <- pow_powerRZ. reflexivity. Qed.
Lemma bpm900 : bp (-900) = / 2 ^ 900. Proof. change (-900)%Z with (Z.opp 900). rewrite bpow_opp, bp900. reflexivity. Qed.
Lemma pow49 (b : Z) : (1 <= b <= 49)%Z -> (1 <= 2 ^ b - 1 < 2 ^ 49)%Z.
Proof. intros H. pose proof (pow2_ge b ltac:(lia)). pose proof (Z.pow_le_mono_r 2 b 49 ltac:(lia) ltac:(lia)). lia. Qed.

(** The range [mn, mx]: two finite doubles, not too large and not too close. *)
Definition range_ok (mn mx : f64) (A : R) : Prop :=
  fin mn /\ fin mx /\ Rabs (val mn) <= A /\ Rabs (val mx) <= A /\ A <= 2 ^ 900 /\ / 2 ^ 900 <= val mx - val mn.
Lemma range_okf (mn mx : f64) (A : R) : range_ok mn mx A -> okf 900 mn /\ okf 900 mx /\ bp (-900) <= val mx - val mn.
Proof.
  intros (F1 & F2 & A1 & A2 & A3 & H). rewrite bpm900. split; [split; [exact F1|rewrite bp900; exact (Rle_trans _ _ _ A1 A3)]|]. split; [split; [exact F2|rewrite bp900; exact (Rle_trans _ _ _ A2 A3)]|]. exact H.
Qed.
Lemma diff_okf (mn mx : f64) (A : R) (x : f64) : range_ok mn mx A -> fin x -> Rabs (val x - val mn) <= 1024 * (val mx - val mn) ->
  okf 913 (x -' mn) /\ val (x -' mn) = rnd (val x - val mn) /\ Rabs (val (x -' mn) - (val x - val mn)) <= uro * Rabs (val x - val mn).
Proof.
  intros HR Fx Hx. destruct (range_okf mn mx A HR) as (K1 & K2 & HT).
  assert (E : bp 912 = 4096 * bp 900) by (change 912%Z with (12 + 900)%Z; rewrite (bpow_plus radix2 12 900); change (bp 12) with 4096; ring).
  apply (minus_E 912 x mn); [split; [exact Fx|]|exact (okf_le 900 912 _ K1 ltac:(lia))|lia].
  rewrite E. destruct K1 as (_ & B1), K2 as (_ & B2). apply abs_le_inv in Hx, B1, B2. apply Rabs_le. lra.
Qed.
Lemma cell_U (b : Z) (x mn mx : f64) (A : R) : (1 <= b <= 49)%Z -> range_ok mn mx A -> fin x -> Rabs (val x - val mn) <= 1024 * (val mx - val mn) ->
  quantizeD_cell (U b) (2 ^ b - 1) x mn mx = Ok (Z.min (Z.max 0 (Binary.Btrunc 53 1024 (q_of mn mx (2 ^ b - 1) (x -' mn)))) (2 ^ b - 1)).
Proof.
  intros Hb HR Fx Hx. destruct (range_okf mn mx A HR) as (K1 & K2 & HT). pose proof (pow49 b Hb) as Hr.
  destruct (diff_okf mn mx A x HR Fx Hx) as (Kw & _ & Ew).
  destruct (q_of_E mn mx K1 K2 HT (2 ^ b - 1) Hr _ _ Kw Ew Hx) as (Fq & _ & Bq & _).
  destruct (long_q _ Fq Bq) as (EL & _).
  unfold quantizeD_cell. cbn [isigned]. unfold q_of in EL |- *. rewrite EL. cbn [bind].
  pose proof (pow2_le b ltac:(lia)). pose proof (pow2_ge b ltac:(lia)). assert (K : (2 ^ 63 > 0)%Z) by reflexivity.
  f_equal. cbn [imax imin isigned ibits]. rewrite !(iconv_in tlong) by (try reflexivity; change (imin tlong) with (- 2 ^ 63)%Z; change (imax tlong) with (2 ^ 63 - 1)%Z; lia).
  apply iconv_in; [cbn; lia|]. cbn [imin imax isigned ibits]. lia.
Qed.
(** The integer a cell of [mn, mx] gets: the scaled value, rounded. *)
Lemma near_U (b : Z) (x mn mx : f64) (A : R) : (1 <= b <= 49)%Z -> range_ok mn mx A -> fin x -> val mn <= val x <= val mx ->
  let k := Binary.Btrunc 53 1024 (q_of mn mx (2 ^ b - 1) (x -' mn)) in
  (0 <= k <= 2 ^ b - 1)%Z /\ Rabs (IZR k - (val x - val mn) * IZR (2 ^ b - 1) / (val mx - val mn)) <= / 2 + 7 * uro * IZR (2 ^ b - 1).
Proof.
  intros Hb HR Fx Hx k. destruct (range_okf mn mx A HR) as (K1 & K2 & HT). pose proof (pow49 b Hb) as Hr. pose proof (T0 mn mx HT) as PT.
  set (r := (2 ^ b - 1)%Z) in *.
  assert (Hx2 : Rabs (val x - val mn) <= 1024 * (val mx - val mn)) by (apply Rabs_le; lra).
  destruct (diff_okf mn mx A x HR Fx Hx2) as (Kw & _ & Ew).
  destruct (q_of_E mn mx K1 K2 HT r Hr _ _ Kw Ew Hx2) as (Fq & _ & Bq & N). specialize (N ltac:(apply Rabs_le; lra)).
  destruct (uro_r r Hr) as (R1 & R2). set (y := (val x - val mn) * IZR r / (val mx - val mn)) in *.
  assert (Y : 0 <= y <= IZR r).
  { assert (D : y = (val x - val mn) / (val mx - val mn) * IZR r) by (unfold y; field; lra).
    assert (D2 : 0 <= (val x - val mn) / (val mx - val mn) <= 1).
    { split; [apply Rmult_le_pos; [lra|left; apply Rinv_0_lt_compat; lra]|].
      apply (Rmult_le_reg_r (val mx - val mn)); [lra|]. unfold Rdiv. rewrite Rmult_assoc, Rinv_l, Rmult_1_r, Rmult_1_l by lra. lra. }
    rewrite D. split; [apply Rmult_le_pos; lra|]. rewrite <- (Rmult_1_l (IZR r)) at 2. apply Rmult_le_compat_r; lra. }
  apply abs_le_inv in N. pose proof (trunc_pos (q_of mn mx r (x -' mn)) ltac:(lra)) as TP. cbv zeta in TP. fold k in TP.
  split; [|apply Rabs_le; lra].
  assert (IZR (-1) < IZR k) by lra. assert (IZR k < IZR (r + 1)) by (rewrite plus_IZR; lra). apply lt_IZR in H, H0. lia.
Qed.
(** What dequantize() makes of k. *)
Lemma deq_U (b : Z) (k : Z) (mn mx : f64) (A : R) : (1 <= b <= 49)%Z -> range_ok mn mx A -> (0 <= k <= 2 ^ b - 1)%Z ->
  let z := dequantizeD_cell (U b) (2 ^ b - 1) k mn mx in
  fin z /\ val mn <= val z <= val mx /\ Rabs (val z - (IZR k / IZR (2 ^ b - 1) * (val mx - val mn) + val mn)) <= 81 / 10 * uro * A.
Proof.
  intros Hb HR Hk. destruct (range_okf mn mx A HR) as (K1 & K2 & HT). pose proof (pow49 b Hb) as Hr. pose proof (T0 mn mx HT) as PT.
  set (r := (2 ^ b - 1)%Z) in *. destruct (uro_r r Hr) as (R1 & R2). pose proof HR as (_ & _ & A1 & A2 & A3 & _).
  destruct (d_E mn mx K1 K2 HT r Hr k A ltac:(lia) A1 A2) as (Kp & Ep).
  destruct (plus_E 901 _ mn Kp (okf_le 900 901 _ K1 ltac:(lia)) ltac:(lia)) as (Ky & _ & Ey).
  assert (C : 0 <= IZR k / IZR r <= 1).
  { destruct Hk as (k1 & k2). apply IZR_le in k1, k2. split; [apply Rmult_le_pos; [lra|left; apply Rinv_0_lt_compat; lra]|].
    apply (Rmult_le_reg_r (IZR r)); [lra|]. unfold Rdiv. rewrite Rmult_assoc, Rinv_l, Rmult_1_r, Rmult_1_l by lra. lra. }
  assert (CT : 0 <= IZR k / IZR r * (val mx - val mn) <= val mx - val mn).
  { split; [apply Rmult_le_pos; lra|]. rewrite <- (Rmult_1_l (val mx - val mn)) at 2. apply Rmult_le_compat_r; lra. }
  apply (clamp_E mn mx K1 K2 _ (IZR k / IZR r * (val mx - val mn) + val mn)); [apply Ky|lra|].
  refine (d_val_plus uro us _ _ _ _ _ A Ep _ Ey). apply abs_le_inv in A1, A2. apply Rabs_le. lra.
Qed.

(** C197: in double, quantising to b <= 49 unsigned bits and reading back moves a
    cell of [mn, mx] by at most half a step plus 23 u max(|mn|, |mx|). *)
Theorem C197_unsigned_roundtrip (b : Z) (M N : nat) (m out : list f64) (quant : list Z) (f : nat -> nat -> f64) (mn mx : f64) (A : R) :
  (1 <= b <= 49)%Z -> repM M N m f -> length quant = (M * N)%nat -> length out = (M * N)%nat -> range_ok mn mx A ->
  (forall i j, (i < M)%nat -> (j < N)%nat -> fin (f i j) /\ val mn <= val (f i j) <= val mx) ->
  exists quant' out' (g : nat -> nat -> Z) (h : nat -> nat -> f64),
  matD_quantize_to (U b) M N m quant mn mx = Ok quant' /\ repM M N quant' g /\
  matD_dequantize (U b) M N quant' out mn mx = Ok out' /\ repM M N out' h /\
  forall i j, (i < M)%nat -> (j < N)%nat ->
    (0 <= g i j <= 2 ^ b - 1)%Z /\ fin (h i j) /\ val mn <= val (h i j) <= val mx /\
    Rabs (val (h i j) - val (f i j)) <= (val mx - val mn) / (2 * IZR (2 ^ b - 1)) + 23 / 2 ^ 53 * A.
Proof.
  intros Hb Hm Lq Lo HR Hin. destruct (range_okf mn mx A HR) as (K1 & K2 & HT). pose proof (pow49 b Hb) as Hr. pose proof (T0 mn mx HT) as PT.
  set (g := fun i j => Binary.Btrunc 53 1024 (q_of mn mx (2 ^ b - 1) (f i j -' mn))).
  set (h := fun i j => dequantizeD_cell (U b) (2 ^ b - 1) (g i j) mn mx).
  pose proof (fun i j Hi Hj => near_U b (f i j) mn mx A Hb HR (proj1 (Hin i j Hi Hj)) (proj2 (Hin i j Hi Hj))) as C. cbv zeta in C.
  pose proof (repM_nth M N quant 0%Z Lq) as Hg0. pose proof (repM_nth M N out f64_zero Lo) as Hh0.
  assert (HQ : returns (matD_quantize_to (U b) M N m quant mn mx) (fun q => repM M N q g)).
  { unfold matD_quantize_to. rewrite range_unsigned by lia. cbn [bind].
    apply (iter_fill M N quant (fun i j => nth (j * M + i) quant 0%Z) g); [exact Hg0|]. intros r c q' Hr' Hc Lq' _.
    unfold rd. rewrite (proj2 Hm r c Hr' Hc). cbn [bind]. destruct (Hin r c Hr' Hc) as (F & B).
    rewrite (cell_U b (f r c) mn mx A Hb HR F) by (apply Rabs_le; lra). cbn [bind]. f_equal. destruct (C r c Hr' Hc) as (B1 & _). unfold g. lia. }
  destruct HQ as (quant' & EQ & HQ).
  assert (HO : returns (matD_dequantize (U b) M N quant' out mn mx) (fun o => repM M N o h)).
  { unfold matD_dequantize. rewrite range_unsigned by lia. cbn [bind].
    apply (iter_fill M N out (fun i j => nth (j * M + i) out f64_zero) h); [exact Hh0|]. intros r c o' Hr' Hc Lo' _.
    unfold rd. rewrite (proj2 HQ r c Hr' Hc). reflexivity. }
  destruct HO as (out' & EO & HO).
  exists quant', out', g, h. split; [exact EQ|]. split; [exact HQ|]. split; [exact EO|]. split; [exact HO|].
  intros i j Hi Hj. destruct (C i j Hi Hj) as (B & E). destruct (deq_U b (g i j) mn mx A Hb HR B) as (Fz & Bz & Ez). fold (h i j) in Fz, Bz, Ez.
  split; [exact B|]. split; [exact Fz|]. split; [exact Bz|]. fold (g i j) in E.
  set (r := (2 ^ b - 1)%Z) in *. destruct (uro_r r Hr) as (R1 & R2). set (T := val mx - val mn) in *. set (x := val (f i j)) in *.
  assert (TA : T <= 2 * A) by (destruct HR as (_ & _ & A1 & A2 & _); apply abs_le_inv in A1, A2; unfold T; lra).
  assert (P : 0 < T / IZR r) by (apply Rdiv_lt_0_compat; lra).
  assert (D : Rabs (IZR (g i j) / IZR r * T + val mn - x) <= (/ 2 + 7 * uro * IZR r) * (T / IZR r)).
  { replace (IZR (g i j) / IZR r * T + val mn - x) with ((IZR (g i j) - (x - val mn) * IZR r / T) * (T / IZR r)) by (field; lra).
    rewrite Rabs_mult, (Rabs_pos_eq _ (Rlt_le _ _ P)). apply Rmult_le_compat_r; lra. }
  replace ((/ 2 + 7 * uro * IZR r) * (T / IZR r)) with (T / (2 * IZR r) + 7 * (uro * T)) in D by (field; lra).
  assert (UT : uro * T <= uro * (2 * A)) by (apply Rmult_le_compat_l; [pose proof us; lra|exact TA]).
  replace (val (h i j) - x) with ((val (h i j) - (IZR (g i j) / IZR r * T + val mn)) + (IZR (g i j) / IZR r * T + val mn - x)) by ring.
  eapply Rle_trans; [apply Rabs_triang|]. change (23 / 2 ^ 53 * A) with (23 * / 2 ^ 53 * A). change (/ 2 ^ 53) with uro.
  assert (0 <= uro * A) by (apply Rmult_le_pos; [pose proof us; lra|lra]). lra.
Qed.
Print Assumptions C197_unsigned_roundtrip.

(** C197: quantisation never reverses an order, its ends are exact, and cells
    outside [mn, mx] (up to 1023 times its width) go to the nearer end. *)
Theorem C197_order (b : Z) (M N : nat) (m : list f64) (quant : list Z) (f : nat -> nat -> f64) (mn mx : f64) (A : R) :
  (1 <= b <= 49)%Z -> repM M N m f -> length quant = (M * N)%nat -> range_ok mn mx A ->
  (forall i j, (i < M)%nat -> (j < N)%nat -> fin (f i j) /\ Rabs (val (f i j) - val mn) <= 1024 * (val mx - val mn)) ->
  exists quant' (g : nat -> nat -> Z), matD_quantize_to (U b) M N m quant mn mx = Ok quant' /\ repM M N quant' g /\
  forall i j, (i < M)%nat -> (j < N)%nat ->
    (0 <= g i j <= 2 ^ b - 1)%Z /\
    (val (f i j) <= val mn -> g i j = 0%Z) /\ (val mx <= val (f i j) -> g i j = (2 ^ b - 1)%Z) /\
    (forall i' j', (i' < M)%nat -> (j' < N)%nat -> val (f i j) <= val (f i' j') -> (g i j <= g i' j')%Z).
Proof.
  intros Hb Hm Lq HR Hin. destruct (range_okf mn mx A HR) as (K1 & K2 & HT). pose proof (pow49 b Hb) as Hr. pose proof (T0 mn mx HT) as PT.
  set (q := fun x => Binary.Btrunc 53 1024 (q_of mn mx (2 ^ b - 1) (x -' mn))).
  set (g := fun i j => Z.min (Z.max 0 (q (f i j))) (2 ^ b - 1)).
  pose proof (repM_nth M N quant 0%Z Lq) as Hg0.
  assert (HQ : returns (matD_quantize_to (U b) M N m quant mn mx) (fun q => repM M N q g)).
  { unfold matD_quantize_to. rewrite range_unsigned by lia. cbn [bind].
    apply (iter_fill M N quant (fun i j => nth (j * M + i) quant 0%Z) g); [exact Hg0|]. intros r c q' Hr' Hc Lq' _.
    unfold rd. rewrite (proj2 Hm r c Hr' Hc). cbn [bind]. destruct (Hin r c Hr' Hc) as (F & B).
    rewrite (cell_U b (f r c) mn mx A Hb HR F B). reflexivity. }
  destruct HQ as (quant' & EQ & HQ). exists quant', g. split; [exact EQ|]. split; [exact HQ|].
  assert (MONO : forall x y : f64, fin x -> fin y -> Rabs (val x - val mn) <= 1024 * (val mx - val mn) -> Rabs (val y - val mn) <= 1024 * (val mx - val mn) ->
    val x <= val y -> (q x <= q y)%Z).
  { intros x y Fx Fy Bx By L. destruct (diff_okf mn mx A x HR Fx Bx) as (Kx & Vx & Ex). destruct (diff_okf mn mx A y HR Fy By) as (Ky & Vy & Ey).
    apply trunc_mono. apply (q_of_mono mn mx K1 K2 HT (2 ^ b - 1) Hr _ _ _ _ Kx Ky Ex Ey Bx By). rewrite Vx, Vy. apply rnd_mono. lra. }
  assert (END1 : q mn = 0%Z).
  { destruct (near_U b mn mn mx A Hb HR (proj1 K1) ltac:(lra)) as (B & E). fold (q mn) in B, E. destruct (uro_r _ Hr) as (R1 & R2).
    replace ((val mn - val mn) * IZR (2 ^ b - 1) / (val mx - val mn)) with 0 in E by (field; lra). apply abs_le_inv in E.
    assert (IZR (q mn) < 1) by lra. apply lt_IZR in H. lia. }
  assert (END2 : q mx = (2 ^ b - 1)%Z).
  { destruct (near_U b mx mn mx A Hb HR (proj1 K2) ltac:(lra)) as (B & E). fold (q mx) in B, E. destruct (uro_r _ Hr) as (R1 & R2).
    replace ((val mx - val mn) * IZR (2 ^ b - 1) / (val mx - val mn)) with (IZR (2 ^ b - 1)) in E by (field; lra). apply abs_le_inv in E.
    assert (IZR (2 ^ b - 1) < IZR (q mx + 1)) by (rewrite plus_IZR; lra). apply lt_IZR in H. lia. }
  intros i j Hi Hj. destruct (Hin i j Hi Hj) as (F & B). split; [unfold g; lia|]. split; [|split].
  - intros L. pose proof (MONO (f i j) mn F (proj1 K1) B ltac:(rewrite Rminus_diag_eq, Rabs_R0 by reflexivity; lra) L). unfold g. lia.
  - intros L. pose proof (MONO mx (f i j) (proj1 K2) F ltac:(apply Rabs_le; lra) B L). unfold g. lia.
  - intros i' j' Hi' Hj' L. destruct (Hin i' j' Hi' Hj') as (F' & B'). pose proof (MONO _ _ F F' B B' L). unfold g. lia.
Qed.
Print Assumptions C197_order.

(** C197: quantize() reports a range [mn, mx] that contains every cell and
    quantises to it. *)
Theorem C197_quantize (cfg : Cfg) (t : ityp) (M N : nat) (m : list f64) (quant : list Z) (f : nat -> nat -> f64) :
  (0 < M)%nat -> (0 < N)%nat -> repM M N m f ->
  (forall i j, (i < M)%nat -> (j < N)%nat -> fin (f i j)) ->
  exists mn mx, fin mn /\ fin mx /\
    (forall i j, (i < M)%nat -> (j < N)%nat -> val mn <= val (f i j) <= val mx) /\
    (exists i j, (i < M)%nat /\ (j < N)%nat /\ val mn = val (f i j)) /\
    (val mx = 0 \/ exists i j, (i < M)%nat /\ (j < N)%nat /\ val mx = val (f i j)) /\
    matD_quantize t M N m quant = (q <- matD_quantize_to t M N m quant mn mx ;; Ok (q, mn, mx)).
Proof.
  intros HM HN Hm Hf. destruct (C181_matrix_extrema cfg M N m f Hm) as ((mn & E1 & (L1 & L2) & L3) & (mx & E2 & (G1 & G2) & G3) & _).
  assert (Fmn : exists i j, (i < M)%nat /\ (j < N)%nat /\ fin mn /\ val mn = val (f i j)).
  { destruct L3 as [((i & j) & (Hi & Hj) & V)|(-> & V)].
    - cbn [fst snd] in *. exists i, j. split; [exact Hi|]. split; [exact Hj|]. rewrite (value_fin _ (Hf i j Hi Hj)) in V. apply value_number, V.
    - specialize (V (0%nat, 0%nat) (conj HM HN)). cbn [fst snd] in V. rewrite (value_fin _ (Hf _ _ HM HN)) in V. destruct V; discriminate. }
  assert (Fmx : fin mx /\ (val mx = 0 \/ exists i j, (i < M)%nat /\ (j < N)%nat /\ val mx = val (f i j))).
  { destruct G3 as [((i & j) & (Hi & Hj) & V)|(-> & V)].
    - cbn [fst snd] in *. rewrite (value_fin _ (Hf i j Hi Hj)) in V. apply value_number in V. destruct V as (V1 & V2). split; [exact V1|]. right. exists i, j. auto.
    - split; [reflexivity|left; reflexivity]. }
  destruct Fmn as (i0 & j0 & Hi0 & Hj0 & F1 & V1). destruct Fmx as (F2 & V2).
  exists mn, mx. split; [exact F1|]. split; [exact F2|]. split; [|split; [exists i0, j0; auto|split; [exact V2|]]].
  - intros i j Hi Hj. specialize (L2 (i, j) (conj Hi Hj)). specialize (G2 (i, j) (conj Hi Hj)). cbn [fst snd] in L2, G2.
    rewrite (value_fin _ (Hf i j Hi Hj)), (value_fin _ F1) in L2. rewrite (value_fin _ (Hf i j Hi Hj)), (value_fin _ F2) in G2.
    destruct L2 as [?|L2]; [discriminate|]. destruct G2 as [?|G2]; [discriminate|]. cbn in L2, G2. lra.
  - unfold matD_quantize. rewrite E1. cbn [bind]. rewrite E2. reflexivity.
Qed.
Print Assumptions C197_quantize.

(** C197: a range of one point divides zero by zero, and converting the NaN to
    long is undefined behaviour. *)
Lemma zero_form (a : f64) : fin a -> val a = 0 -> exists s, a = B754_zero 53 1024 s.
Proof.
  destruct a as [s|s|s p H|s p e H]; intros F V; try discriminate F; [exists s; reflexivity|]. exfalso. unfold val in V. cbn in V.
  destruct s; cbn in V.
  - assert (F2R (Float radix2 (Z.neg p) e) < 0) by (apply F2R_lt_0; reflexivity). lra.
  - assert (0 < F2R (Float radix2 (Z.pos p) e)) by (apply F2R_gt_0; reflexivity). lra.
Qed.
Lemma self_diff (a b : f64) : fin a -> fin b -> val a = val b -> exists s, a -' b = B754_zero 53 1024 s.
Proof.
  intros Fa Fb E. destruct (minus_fin a b Fa Fb) as (F & V).
  { rewrite E, Rminus_diag_eq by reflexivity. rewrite round_0 by apply valid_rnd_N. rewrite Rabs_R0. apply bpow_gt_0. }
  apply zero_form; [exact F|]. rewrite V, E, Rminus_diag_eq by reflexivity. apply round_0, valid_rnd_N.
Qed.
Lemma cell_point (b : Z) (x mn mx : f64) : (1 <= b <= 49)%Z -> fin x -> fin mn -> fin mx -> val mn = val x -> val mx = val x ->
  quantizeD_cell (U b) (2 ^ b - 1) x mn mx = UB.
Proof.
  intros Hb Fx Fn Fm E1 E2. destruct (self_diff mx mn Fm Fn ltac:(lra)) as (s1 & D1). destruct (self_diff x mn Fx Fn ltac:(lra)) as (s2 & D2).
  pose proof (pow49 b Hb) as Hr. destruct (r_E (2 ^ b - 1) Hr) as (Kr & Vr). destruct (uro_r _ Hr) as (R1 & _).
  unfold quantizeD_cell. cbn [isigned]. rewrite D1, D2.
  assert (Z0 : exists s, b64_mult mode_NE (B754_zero 53 1024 s2) (f64_of_Z (2 ^ b - 1)) = B754_zero 53 1024 s).
  { destruct Kr as (Fr & _). destruct (f64_of_Z (2 ^ b - 1)) as [s|s|s p H|s p e H]; try discriminate Fr; eexists; reflexivity. }
  destruct Z0 as (s & ->). destruct s, s1; reflexivity.
Qed.
Theorem C197_point_range_refuted (b : Z) (M N : nat) (m : list f64) (quant : list Z) (f : nat -> nat -> f64) (mn mx : f64) :
  (1 <= b <= 49)%Z -> (0 < M)%nat -> (0 < N)%nat -> repM M N m f -> fin mn -> fin mx -> fin (f 0%nat 0%nat) ->
  val mn = val (f 0%nat 0%nat) -> val mx = val (f 0%nat 0%nat) ->
  matD_quantize_to (U b) M N m quant mn mx = UB.
Proof.
  intros Hb HM HN Hm F1 F2 F E1 E2. unfold matD_quantize_to. rewrite range_unsigned by lia. cbn [bind].
  rewrite for_step by nia. unfold rd. rewrite (proj2 Hm 0%nat 0%nat HM HN : nth_error m 0 = _). cbn [bind].
  rewrite (cell_point b _ mn mx Hb F F1 F2 E1 E2). reflexivity.
Qed.
(** So quantize() of a constant, non-negative matrix is undefined. *)
Theorem C197_constant_refuted (cfg : Cfg) (b : Z) (M N : nat) (m : list f64) (quant : list Z) (f : nat -> nat -> f64) (c : R) :
  (1 <= b <= 49)%Z -> (0 < M)%nat -> (0 < N)%nat -> repM M N m f -> 0 <= c ->
  (forall i j, (i < M)%nat -> (j < N)%nat -> fin (f i j) /\ val (f i j) = c) ->
  matD_quantize (U b) M N m quant = UB.
Proof.
  intros Hb HM HN Hm Hc Hf.
  destruct (C197_quantize cfg (U b) M N m quant f HM HN Hm (fun i j Hi Hj => proj1 (Hf i j Hi Hj))) as (mn & mx & F1 & F2 & B & (i & j & Hi & Hj & E1) & E2 & ->).
  destruct (Hf 0%nat 0%nat HM HN) as (F0 & V0). specialize (B 0%nat 0%nat HM HN).
  rewrite (C197_point_range_refuted b M N m quant f mn mx Hb HM HN Hm F1 F2 F0); [reflexivity| |].
  - rewrite E1, (proj2 (Hf i j Hi Hj)), V0. reflexivity.
  - destruct E2 as [E2|(i' & j' & Hi' & Hj' & E2)]; [|rewrite E2, (proj2 (Hf i' j' Hi' Hj')), V0; reflexivity]. lra.
Qed.
Print Assumptions C197_constant_refuted.

(** ** Signed targets *)
Lemma w_okf (mn mx : f64) (A : R) (x : f64) : range_ok mn mx A -> fin x -> Rabs (val x) <= 1024 * (val mx - val mn) ->
  okf 913 x /\ Rabs (val x - val x) <= uro * Rabs (val x).
Proof.
  intros HR Fx Hx. destruct (range_okf mn mx A HR) as (K1 & K2 & HT). split.
  - split; [exact Fx|]. assert (E : bp 913 = 8192 * bp 900) by (change 913%Z with (13 + 900)%Z; rewrite (bpow_plus radix2 13 900); change (bp 13) with 8192; ring).
    rewrite E. destruct K1 as (_ & B1), K2 as (_ & B2). apply abs_le_inv in Hx, B1, B2. apply Rabs_le. lra.
  - rewrite Rminus_diag_eq, Rabs_R0 by reflexivity. apply Rmult_le_pos; [pose proof us; lra|apply Rabs_pos].
Qed.
Lemma cell_I (b : Z) (x mn mx : f64) (A : R) : (1 <= b <= 49)%Z -> range_ok mn mx A -> fin x -> Rabs (val x) <= 1024 * (val mx - val mn) ->
  quantizeD_cell (I b) (2 ^ b - 1) x mn mx = Ok (Z.min (Z.max (- 2 ^ (b - 1)) (Binary.Btrunc 53 1024 (q_of mn mx (2 ^ b - 1) x))) (2 ^ (b - 1) - 1)).
Proof.
  intros Hb HR Fx Hx. destruct (range_okf mn mx A HR) as (K1 & K2 & HT). pose proof (pow49 b Hb) as Hr.
  destruct (w_okf mn mx A x HR Fx Hx) as (Kw & Ew).
  destruct (q_of_E mn mx K1 K2 HT (2 ^ b - 1) Hr _ _ Kw Ew Hx) as (Fq & _ & Bq & _).
  destruct (long_q _ Fq Bq) as (EL & _).
  unfold quantizeD_cell. cbn [isigned]. unfold q_of in EL |- *. rewrite EL. cbn [bind].
  pose proof (pow2_le b ltac:(lia)). pose proof (pow2_ge b ltac:(lia)). assert (K : (2 ^ 63 > 0)%Z) by reflexivity.
  assert (E : (2 ^ b = 2 * 2 ^ (b - 1))%Z) by (rewrite <- Z.pow_succ_r by lia; f_equal; lia).
  f_equal. cbn [imax imin isigned ibits]. rewrite !(iconv_in tlong) by (try reflexivity; change (imin tlong) with (- 2 ^ 63)%Z; change (imax tlong) with (2 ^ 63 - 1)%Z; lia).
  apply iconv_in; [cbn; lia|]. cbn [imin imax isigned ibits]. lia.
Qed.
Lemma near_I (b : Z) (x mn mx : f64) (A : R) : (1 <= b <= 49)%Z -> range_ok mn mx A -> fin x -> Rabs (val x) <= (val mx - val mn) / 2 ->
  let k := Z.min (Z.max (- 2 ^ (b - 1)) (Binary.Btrunc 53 1024 (q_of mn mx (2 ^ b - 1) x))) (2 ^ (b - 1) - 1) in
  let y := val x * IZR (2 ^ b - 1) / (val mx - val mn) in
  (- 2 ^ (b - 1) <= k <= 2 ^ (b - 1) - 1)%Z /\ Rabs (IZR k - y) <= 3 / 2 + 7 * uro * IZR (2 ^ b - 1) /\
  (0 <= val x -> Rabs (IZR k - y) <= / 2 + 7 * uro * IZR (2 ^ b - 1)).
Proof.
  intros Hb HR Fx Hx. destruct (range_okf mn mx A HR) as (K1 & K2 & HT). pose proof (pow49 b Hb) as Hr. pose proof (T0 mn mx HT) as PT.
  pose proof (pow2_ge b ltac:(lia)) as B2.
  assert (E : (2 ^ b = 2 * 2 ^ (b - 1))%Z) by (rewrite <- Z.pow_succ_r by lia; f_equal; lia).
  set (r := (2 ^ b - 1)%Z) in *. set (hi := (2 ^ (b - 1))%Z) in *.
  assert (RH : IZR r = 2 * IZR hi - 1) by (rewrite <- mult_IZR, <- minus_IZR; f_equal; lia).
  assert (Hx2 : Rabs (val x) <= 1024 * (val mx - val mn)) by lra.
  destruct (w_okf mn mx A x HR Fx Hx2) as (Kw & Ew).
  destruct (q_of_E mn mx K1 K2 HT r Hr _ _ Kw Ew Hx2) as (Fq & _ & Bq & N). specialize (N ltac:(lra)).
  destruct (uro_r r Hr) as (R1 & R2). set (y := val x * IZR r / (val mx - val mn)) in *. intros k. cbv zeta.
  assert (P : 0 < IZR r / (val mx - val mn)) by (apply Rdiv_lt_0_compat; lra).
  assert (D : y = val x * (IZR r / (val mx - val mn))) by (unfold y; field; lra).
  assert (Y : Rabs y <= IZR hi - / 2).
  { rewrite D, Rabs_mult, (Rabs_pos_eq _ (Rlt_le _ _ P)). replace (IZR hi - / 2) with ((val mx - val mn) / 2 * (IZR r / (val mx - val mn))) by (rewrite RH; field; lra).
    apply Rmult_le_compat_r; lra. }
  assert (Y0 : 0 <= val x -> 0 <= y) by (intros X; rewrite D; apply Rmult_le_pos; lra).
  apply abs_le_inv in N, Y. set (q := q_of mn mx r x) in *. set (j := Binary.Btrunc 53 1024 q) in *. fold hi in k.
  assert (H0 : (1 <= hi)%Z) by lia. assert (H1 : 1 <= IZR hi) by (apply (IZR_le 1); exact H0).
  split; [unfold k; lia|].
  assert (CASE : (0 <= val q /\ IZR j <= val q < IZR j + 1) \/ (val q < 0 /\ val q <= IZR j < val q + 1)).
  { destruct (Rle_dec 0 (val q)) as [L|L]; [left|right]; (split; [lra|]); [apply (trunc_pos q L)|apply (trunc_neg q); lra]. }
  assert (JL : (- hi <= j)%Z).
  { assert (IZR (- hi) < IZR (j + 1)) by (rewrite opp_IZR, plus_IZR; destruct CASE; lra). apply lt_IZR in H. lia. }
  assert (KJ : k = j \/ ((hi <= j)%Z /\ k = (hi - 1)%Z)) by (unfold k; lia).
  assert (HI : IZR (hi - 1) = IZR hi - 1) by (rewrite minus_IZR; reflexivity).
  destruct KJ as [->|(J & ->)].
  - split; [apply Rabs_le; destruct CASE; lra|]. intros X. specialize (Y0 X). apply Rabs_le. destruct CASE; lra.
  - apply IZR_le in J. rewrite HI. split; [apply Rabs_le; destruct CASE; lra|]. intros _. apply Rabs_le. destruct CASE; lra.
Qed.
Lemma deq_I (b : Z) (k : Z) (x mn mx : f64) (A B : R) : (1 <= b <= 49)%Z -> range_ok mn mx A -> (- 2 ^ (b - 1) <= k <= 2 ^ (b - 1) - 1)%Z ->
  val mn <= val x <= val mx -> Rabs (IZR k / IZR (2 ^ b - 1) * (val mx - val mn) - val x) <= B ->
  let z := dequantizeD_cell (I b) (2 ^ b - 1) k mn mx in
  fin z /\ val mn <= val z <= val mx /\ Rabs (val z - val x) <= 7 * uro * A + B.
Proof.
  intros Hb HR Hk Hx HB. destruct (range_okf mn mx A HR) as (K1 & K2 & HT). pose proof (pow49 b Hb) as Hr. pose proof (T0 mn mx HT) as PT.
  assert (E : (2 ^ b = 2 * 2 ^ (b - 1))%Z) by (rewrite <- Z.pow_succ_r by lia; f_equal; lia).
  assert (P1 : (1 <= 2 ^ (b - 1))%Z) by (pose proof (pow2_ge b ltac:(lia)); lia).
  pose proof HR as (_ & _ & A1 & A2 & A3 & _).
  destruct (d_E mn mx K1 K2 HT (2 ^ b - 1) Hr k A ltac:(lia) A1 A2) as (Kp & Ep).
  apply (clamp_E mn mx K1 K2 _ (val x)); [apply Kp|exact Hx|].
  match goal with |- Rabs (?a - ?c) <= _ => replace (a - c) with ((a - IZR k / IZR (2 ^ b - 1) * (val mx - val mn)) + (IZR k / IZR (2 ^ b - 1) * (val mx - val mn) - c)) by ring end.
  eapply Rle_trans; [apply Rabs_triang|]. apply Rplus_le_compat; [exact Ep|exact HB].
Qed.
(** C198: signed targets of b <= 49 bits, for cells of [mn, mx] whose magnitude is
    at most half the range: one and a half steps, half a step if not negative,
    plus 23 u max(|mn|, |mx|); the order is kept. *)
Theorem C198_signed_roundtrip (b : Z) (M N : nat) (m out : list f64) (quant : list Z) (f : nat -> nat -> f64) (mn mx : f64) (A : R) :
  (1 <= b <= 49)%Z -> repM M N m f -> length quant = (M * N)%nat -> length out = (M * N)%nat -> range_ok mn mx A ->
  (forall i j, (i < M)%nat -> (j < N)%nat -> fin (f i j) /\ val mn <= val (f i j) <= val mx /\ Rabs (val (f i j)) <= (val mx - val mn) / 2) ->
  let step := (val mx - val mn) / IZR (2 ^ b - 1) in
  exists quant' out' (g : nat -> nat -> Z) (h : nat -> nat -> f64),
  matD_quantize_to (I b) M N m quant mn mx = Ok quant' /\ repM M N quant' g /\
  matD_dequantize (I b) M N quant' out mn mx = Ok out' /\ repM M N out' h /\
  forall i j, (i < M)%nat -> (j < N)%nat ->
    (- 2 ^ (b - 1) <= g i j <= 2 ^ (b - 1) - 1)%Z /\ fin (h i j) /\ val mn <= val (h i j) <= val mx /\
    Rabs (val (h i j) - val (f i j)) <= 3 / 2 * step + 23 / 2 ^ 53 * A /\
    (0 <= val (f i j) -> Rabs (val (h i j) - val (f i j)) <= step / 2 + 23 / 2 ^ 53 * A) /\
    (forall i' j', (i' < M)%nat -> (j' < N)%nat -> val (f i j) <= val (f i' j') -> (g i j <= g i' j')%Z).
Proof.
  intros Hb Hm Lq Lo HR Hin step. destruct (range_okf mn mx A HR) as (K1 & K2 & HT). pose proof (pow49 b Hb) as Hr. pose proof (T0 mn mx HT) as PT.
  set (g := fun i j => Z.min (Z.max (- 2 ^ (b - 1)) (Binary.Btrunc 53 1024 (q_of mn mx (2 ^ b - 1) (f i j)))) (2 ^ (b - 1) - 1)).
  set (h := fun i j => dequantizeD_cell (I b) (2 ^ b - 1) (g i j) mn mx).
  pose proof (fun i j Hi Hj => near_I b (f i j) mn mx A Hb HR (proj1 (Hin i j Hi Hj)) (proj2 (proj2 (Hin i j Hi Hj)))) as C. cbv zeta in C.
  pose proof (repM_nth M N quant 0%Z Lq) as Hg0. pose proof (repM_nth M N out f64_zero Lo) as Hh0.
  assert (W : forall i j, (i < M)%nat -> (j < N)%nat -> Rabs (val (f i j)) <= 1024 * (val mx - val mn)) by (intros i j Hi Hj; destruct (Hin i j Hi Hj) as (_ & _ & B); lra).
  assert (HQ : returns (matD_quantize_to (I b) M N m quant mn mx) (fun q => repM M N q g)).
  { unfold matD_quantize_to. rewrite range_signed by lia. cbn [bind].
    apply (iter_fill M N quant (fun i j => nth (j * M + i) quant 0%Z) g); [exact Hg0|]. intros r c q' Hr' Hc Lq' _.
    unfold rd. rewrite (proj2 Hm r c Hr' Hc). cbn [bind]. destruct (Hin r c Hr' Hc) as (F & _).
    rewrite (cell_I b (f r c) mn mx A Hb HR F (W r c Hr' Hc)). reflexivity. }
  destruct HQ as (quant' & EQ & HQ).
  assert (HO : returns (matD_dequantize (I b) M N quant' out mn mx) (fun o => repM M N o h)).
  { unfold matD_dequantize. rewrite range_signed by lia. cbn [bind].
    apply (iter_fill M N out (fun i j => nth (j * M + i) out f64_zero) h); [exact Hh0|]. intros r c o' Hr' Hc Lo' _.
    unfold rd. rewrite (proj2 HQ r c Hr' Hc). reflexivity. }
  destruct HO as (out' & EO & HO).
  exists quant', out', g, h. split; [exact EQ|]. split; [exact HQ|]. split; [exact EO|]. split; [exact HO|].
  intros i j Hi Hj. destruct (C i j Hi Hj) as (B & E & E0). fold (g i j) in B, E, E0. destruct (Hin i j Hi Hj) as (F & R & _).
  set (r := (2 ^ b - 1)%Z) in *. destruct (uro_r r Hr) as (R1 & R2).
  assert (TA : val mx - val mn <= 2 * A) by (destruct HR as (_ & _ & A1 & A2 & _); apply abs_le_inv in A1, A2; lra).
  assert (P : 0 < step) by (apply Rdiv_lt_0_compat; lra).
  assert (UT : uro * (val mx - val mn) <= uro * (2 * A)) by (apply Rmult_le_compat_l; [pose proof us; lra|exact TA]).
  assert (U0 : 0 <= uro * A) by (apply Rmult_le_pos; [pose proof us; lra|lra]).
  assert (D : forall K, Rabs (IZR (g i j) - val (f i j) * IZR r / (val mx - val mn)) <= K + 7 * uro * IZR r ->
    Rabs (IZR (g i j) / IZR r * (val mx - val mn) - val (f i j)) <= K * step + 14 * (uro * A)).
  { intros K HK. replace (IZR (g i j) / IZR r * (val mx - val mn) - val (f i j)) with ((IZR (g i j) - val (f i j) * IZR r / (val mx - val mn)) * step) by (unfold step; fold r; field; lra).
    rewrite Rabs_mult, (Rabs_pos_eq step) by lra. apply (Rmult_le_compat_r step) in HK; [|lra].
    assert (RS : IZR r * step = val mx - val mn) by (unfold step; fold r; field; lra).
    replace ((K + 7 * uro * IZR r) * step) with (K * step + 7 * (uro * (IZR r * step))) in HK by ring. rewrite RS in HK. lra. }
  change (23 / 2 ^ 53 * A) with (23 * / 2 ^ 53 * A). change (/ 2 ^ 53) with uro.
  destruct (deq_I b (g i j) (f i j) mn mx A _ Hb HR B R (D (3 / 2) E)) as (Fz & Bz & Ez). fold r in Fz, Bz, Ez. fold (h i j) in Fz, Bz, Ez.
  split; [exact B|]. split; [exact Fz|]. split; [exact Bz|]. split; [lra|]. split.
  - intros X. destruct (deq_I b (g i j) (f i j) mn mx A _ Hb HR B R (D (/ 2) (E0 X))) as (_ & _ & Ez2). fold r in Ez2. fold (h i j) in Ez2. lra.
  - intros i' j' Hi' Hj' L. destruct (Hin i' j' Hi' Hj') as (F' & _).
    destruct (w_okf mn mx A (f i j) HR F (W i j Hi Hj)) as (Ka & Ea). destruct (w_okf mn mx A (f i' j') HR F' (W i' j' Hi' Hj')) as (Kb & Eb).
    assert (Q : (Binary.Btrunc 53 1024 (q_of mn mx r (f i j)) <= Binary.Btrunc 53 1024 (q_of mn mx r (f i' j')))%Z).
    { apply trunc_mono. apply (q_of_mono mn mx K1 K2 HT r Hr _ _ _ _ Ka Kb Ea Eb (W i j Hi Hj) (W i' j' Hi' Hj') L). }
    unfold g. lia.
Qed.
Print Assumptions C198_signed_roundtrip.

(** 0, 1/2 and 1 through eight unsigned bits; 1/2 in [-1, 1] through signed ones. *)
Example C197_hypotheses_met : range_ok f64_zero f64_one 1 /\ (fin f64_half /\ val f64_zero <= val f64_half <= val f64_one) /\
  matD_quantize_to (U 8) 1 3 [f64_zero; f64_half; f64_one] [0; 0; 0]%Z f64_zero f64_one = Ok [0; 128; 255]%Z /\
  match matD_dequantize (U 8) 1 3 [0; 128; 255]%Z [f64_one; f64_one; f64_one] f64_zero f64_one with Ok q => map bits_of_b64 q = [0; 4602696480347656208; 4607182418800017408]%Z | _ => False end.
Proof.
  assert (P : 1 <= 2 ^ 900) by (apply pow_R1_Rle; lra).
  assert (P2 : / 2 ^ 900 <= 1) by (rewrite <- Rinv_1; apply Rinv_le_contravar; lra).
  assert (V0 : val f64_zero = 0) by reflexivity.
  split. { repeat split; rewrite ?V0, ?val_one, ?Rabs_R0, ?Rabs_R1; try reflexivity; lra. }
  split. { split; [reflexivity|]. rewrite V0, val_one, val_half. lra. }
  split; vm_compute; reflexivity.
Qed.
Example C198_hypotheses_met : range_ok (b64_opp f64_one) f64_one 1 /\ (fin f64_half /\ val (b64_opp f64_one) <= val f64_half <= val f64_one /\ Rabs (val f64_half) <= (val f64_one - val (b64_opp f64_one)) / 2) /\
  matD_quantize_to (I 8) 1 2 [f64_half; b64_opp f64_half] [0; 0]%Z (b64_opp f64_one) f64_one = Ok [64; -63]%Z.
Proof.
  assert (P : 1 <= 2 ^ 900) by (apply pow_R1_Rle; lra).
  assert (P2 : / 2 ^ 900 <= 1) by (rewrite <- Rinv_1; apply Rinv_le_contravar; lra).
  assert (V1 : val (b64_opp f64_one) = -1) by (unfold val, b64_opp; rewrite B2R_Bopp; fold (val f64_one); rewrite val_one; reflexivity).
  split. { repeat split; rewrite ?V1, ?val_one, ?Rabs_R1; try reflexivity; try lra. rewrite Rabs_left; lra. }
  split. { split; [reflexivity|]. rewrite V1, val_one, val_half. rewrite Rabs_pos_eq by lra. lra. }
  vm_compute. reflexivity.
Qed.
