(** Property C156: from the six numbers of a frustum to the verdict of the culler,
    everything in float precision, against the exact frustum. *)
From Coq Require Import ZArith Reals Lra Psatz Bool List.
From Flocq Require Import Core.Core IEEE754.BinarySingleNaN IEEE754.Binary IEEE754.Bits.
From Verif Require Import InstR InstF InstF32 LVector LMatrix LVector2 Spec LSum LVectorR LVecProps2 MFrustum Spec4 PFrustum PCuller MFloat MCullF MViewF PF32 LF32 PF32b LExprF PCullF PCullF2.
From Verif Require LF32d LExt32 PFilter PFloat LFloat PFloat2 LErr PFrustumF PFrustumF32 PViewF.
Import ListNotations.
Local Open Scope R_scope.
Local Notation bp := (bpow radix2).
Local Existing Instance F32Scalar.
Local Notation uro_val := PCullF.uro_val.


Definition sc (s : R) (h : hs) : hs := (scale3 s (fst h), s * snd h).
Lemma sdist_scale s h q : 0 < s -> sdist (sc s h) q = sdist h q.
Proof.
  intros Hs. unfold sdist, sc. cbn [fst snd]. rewrite len3_scale, (Rabs_pos_eq s) by lra. unfold hval. cbn [fst snd].
  replace (dot3 (scale3 s (fst h)) q + s * snd h) with (s * (dot3 (fst h) q + snd h)) by (destruct h as [[[a b] c] d], q as [[x y] z]; cbn; ring).
  destruct (Req_dec (len3R (fst h)) 0) as [Z|Z]; [rewrite Z, Rmult_0_r; unfold Rdiv; rewrite Rinv_0; ring|]. field. split; lra.
Qed.
Lemma terms_scale s h q : 0 < s -> termsR (sc s h) q / len3R (fst (sc s h)) = termsR h q / len3R (fst h).
Proof.
  intros Hs. unfold sc. cbn [fst]. rewrite len3_scale, (Rabs_pos_eq s) by lra.
  replace (termsR (scale3 s (fst h), s * snd h) q) with (s * termsR h q).
  - destruct (Req_dec (len3R (fst h)) 0) as [Z|Z]; [rewrite Z, Rmult_0_r; unfold Rdiv; rewrite Rinv_0; ring|]. field. split; lra.
  - destruct h as [[[a b] c] d], q as [[x y] z]. cbn. rewrite !Rmult_assoc, !(Rabs_mult s), (Rabs_pos_eq s) by lra. ring.
Qed.
Lemma len3_l1 a b c : len3R (a, b, c) <= Rabs a + Rabs b + Rabs c.
Proof.
  pose proof (Rabs_pos a). pose proof (Rabs_pos b). pose proof (Rabs_pos c).
  unfold len3R. rewrite <- (sqrt_square (Rabs a + Rabs b + Rabs c)) by lra. apply sqrt_le_1_alt. cbn.
  assert (SQ : forall x, x * x = Rabs x * Rabs x) by (intros x; rewrite <- Rabs_mult; symmetry; apply Rabs_pos_eq, Rle_0_sqr).
  rewrite (SQ a), (SQ b), (SQ c). nra.
Qed.
Lemma len3_comp a b c : Rabs a <= len3R (a, b, c) /\ Rabs b <= len3R (a, b, c) /\ Rabs c <= len3R (a, b, c).
Proof.
  assert (Q0 := Rle_0_sqr a). assert (Q1 := Rle_0_sqr b). assert (Q2 := Rle_0_sqr c). unfold Rsqr in *.
  pose proof (len3_nonneg (a, b, c)) as L0. pose proof (len3_sq (a, b, c)) as E. cbn in E.
  repeat split; rewrite <- (Rabs_pos_eq (len3R (a, b, c)) L0); apply Rsqr_le_abs_0; unfold Rsqr; lra.
Qed.
(** A half-space h whose coefficients are close to those of H; the point q lies
    in the box |x| <= X, |y| <= Y, |z| <= Z. *)
Lemma pert_total (h H : hs) (q : V3) (X Y Z ex ey ez ed : R) :
  let '((a, b, c), d) := h in let '((A, B, C), D) := H in let '(x, y, z) := q in
  Rabs x <= X -> Rabs y <= Y -> Rabs z <= Z ->
  Rabs (a - A) <= ex -> Rabs (b - B) <= ey -> Rabs (c - C) <= ez -> Rabs (d - D) <= ed ->
  let L := len3R (A, B, C) in let T := termsR H (X, Y, Z) in let e := ex + ey + ez in let E := ex * X + ey * Y + ez * Z + ed in
  0 < L -> e <= L / 100 ->
  99 / 100 * L <= len3R (a, b, c) /\
  Rabs (sdist h q - sdist H q) + 26 * uro * (termsR h (X, Y, Z) / len3R (a, b, c)) <= 102 / 100 * ((E + T / L * e + 26 * uro * (T + E)) / L).
Proof.
  destruct h as [[[a b] c] d], H as [[[A B] C] D], q as [[x y] z]. intros HX HY HZ Ha Hb Hc Hd L T e E L0 He.
  set (L' := len3R (a, b, c)).
  assert (P0 := Rabs_pos (a - A)). assert (P1 := Rabs_pos (b - B)). assert (P2 := Rabs_pos (c - C)). assert (P3 := Rabs_pos (d - D)).
  assert (X0 : 0 <= X) by (pose proof (Rabs_pos x); lra). assert (Y0 : 0 <= Y) by (pose proof (Rabs_pos y); lra). assert (Z0 : 0 <= Z) by (pose proof (Rabs_pos z); lra).
  assert (EL : Rabs (L' - L) <= e).
  { assert (K1 : L' <= L + e).
    { unfold L', L. replace (a, b, c) with (add3 (A, B, C) (a - A, b - B, c - C)) by (cbn; f_equal; [f_equal|]; ring).
      eapply Rle_trans; [apply len3_triangle|]. apply Rplus_le_compat_l. eapply Rle_trans; [apply len3_l1|]. unfold e. lra. }
    assert (K2 : L <= L' + e).
    { unfold L', L. replace (A, B, C) with (add3 (a, b, c) (A - a, B - b, C - c)) by (cbn; f_equal; [f_equal|]; ring).
      eapply Rle_trans; [apply len3_triangle|]. apply Rplus_le_compat_l. eapply Rle_trans; [apply len3_l1|].
      rewrite (Rabs_minus_sym A a), (Rabs_minus_sym B b), (Rabs_minus_sym C c). unfold e. lra. }
    apply Rabs_le. lra. }
  assert (L1 : 99 / 100 * L <= L') by (apply Rabs_le_inv in EL; lra). split; [exact L1|].
  assert (L'0 : 0 < L') by lra.
  set (hv := hval ((a, b, c), d) (x, y, z)). set (HV := hval ((A, B, C), D) (x, y, z)).
  assert (MU : forall u v p r, 0 <= r -> 0 <= Rabs v -> Rabs u <= r -> Rabs v <= p -> Rabs u * Rabs v <= r * p).
  { intros u v p r H0 H1 H2 H3. apply Rmult_le_compat; try apply Rabs_pos; assumption. }
  assert (EV : Rabs (hv - HV) <= E).
  { unfold hv, HV, hval. cbn. replace (a * x + b * y + c * z + d - (A * x + B * y + C * z + D)) with ((a - A) * x + (b - B) * y + (c - C) * z + (d - D)) by ring.
    eapply Rle_trans; [apply Rabs_triang|]. eapply Rle_trans; [apply Rplus_le_compat_r, Rabs_triang|]. eapply Rle_trans; [apply Rplus_le_compat_r, Rplus_le_compat_r, Rabs_triang|].
    rewrite !Rabs_mult. unfold E. repeat apply Rplus_le_compat; try assumption; apply MU; try apply Rabs_pos; try assumption; lra. }
  assert (PX : forall u : R, Rabs (u * X) = Rabs u * X) by (intros u; rewrite Rabs_mult, (Rabs_pos_eq X X0); reflexivity).
  assert (PY : forall u : R, Rabs (u * Y) = Rabs u * Y) by (intros u; rewrite Rabs_mult, (Rabs_pos_eq Y Y0); reflexivity).
  assert (PZ : forall u : R, Rabs (u * Z) = Rabs u * Z) by (intros u; rewrite Rabs_mult, (Rabs_pos_eq Z Z0); reflexivity).
  assert (ET : Rabs HV <= T).
  { unfold HV, T, hval. cbn. eapply Rle_trans; [apply Rabs_triang|]. eapply Rle_trans; [apply Rplus_le_compat_r, Rabs_triang|]. 
    eapply Rle_trans; [apply Rplus_le_compat_r, Rplus_le_compat_r, Rabs_triang|]. rewrite PX, PY, PZ, !Rabs_mult.
    repeat apply Rplus_le_compat; try (apply Rmult_le_compat_l; [apply Rabs_pos|assumption]). lra. }
  assert (Et : termsR ((a, b, c), d) (X, Y, Z) <= T + E).
  { unfold T, E. cbn. rewrite !PX, !PY, !PZ.
    apply abs_tri_err in Ha, Hb, Hc, Hd.
    assert (Rabs a * X <= (Rabs A + ex) * X) by (apply Rmult_le_compat_r; assumption).
    assert (Rabs b * Y <= (Rabs B + ey) * Y) by (apply Rmult_le_compat_r; assumption).
    assert (Rabs c * Z <= (Rabs C + ez) * Z) by (apply Rmult_le_compat_r; assumption). lra. }
  assert (T0 : 0 <= T) by (eapply Rle_trans; [apply Rabs_pos|exact ET]). assert (E0 : 0 <= E) by (eapply Rle_trans; [apply Rabs_pos|exact EV]).
  assert (e0 : 0 <= e) by (unfold e; lra). assert (U : 0 < uro) by (rewrite uro_val; lra).
  assert (TL : 0 <= T / L) by (apply Rmult_le_pos; [exact T0|apply Rlt_le, Rinv_0_lt_compat, L0]).
  assert (S1 : Rabs (sdist ((a, b, c), d) (x, y, z) - sdist ((A, B, C), D) (x, y, z)) <= (E + T / L * e) / L').
  { unfold sdist. cbn [fst]. fold hv HV L L'. replace (hv / L' - HV / L) with (((hv - HV) - HV / L * (L' - L)) * / L') by (field; lra).
    rewrite Rabs_mult, (Rabs_pos_eq (/ L')) by (apply Rlt_le, Rinv_0_lt_compat, L'0). apply Rmult_le_compat_r; [apply Rlt_le, Rinv_0_lt_compat, L'0|].
    unfold Rminus at 1. eapply Rle_trans; [apply Rabs_triang|]. rewrite Rabs_Ropp, Rabs_mult. apply Rplus_le_compat; [exact EV|].
    apply Rmult_le_compat; try apply Rabs_pos; [|exact EL]. unfold Rdiv. rewrite Rabs_mult, (Rabs_pos_eq (/ L)) by (apply Rlt_le, Rinv_0_lt_compat, L0).
    apply Rmult_le_compat_r; [apply Rlt_le, Rinv_0_lt_compat, L0|exact ET]. }
  assert (S2 : 26 * uro * (termsR ((a, b, c), d) (X, Y, Z) / L') <= 26 * uro * (T + E) / L').
  { unfold Rdiv. rewrite <- Rmult_assoc. apply Rmult_le_compat_r; [apply Rlt_le, Rinv_0_lt_compat, L'0|]. apply Rmult_le_compat_l; [lra|exact Et]. }
  set (N := E + T / L * e + 26 * uro * (T + E)).
  assert (N0 : 0 <= N) by (unfold N; assert (0 <= T / L * e) by (apply Rmult_le_pos; assumption); assert (0 <= uro * (T + E)) by (apply Rmult_le_pos; lra); lra).
  apply Rle_trans with (N / L').
  - eapply Rle_trans; [apply Rplus_le_compat; [exact S1|exact S2]|]. unfold N. unfold Rdiv. apply Req_le. ring.
  - unfold Rdiv. rewrite (Rmult_comm N (/ L)), <- Rmult_assoc. rewrite (Rmult_comm N). apply Rmult_le_compat_r; [exact N0|].
    apply (Rmult_le_reg_l L'); [exact L'0|]. rewrite Rinv_r by lra. apply (Rmult_le_reg_r L); [exact L0|]. 
    replace (L' * (102 * / 100 * / L) * L) with (102 / 100 * L') by (field; lra). lra.
Qed.
Lemma bound_fin (L T e E K W dl S : R) : 0 < L -> 0 <= W -> 0 <= S -> 1 <= K -> uro * K <= / 500 -> 0 <= dl -> dl <= uro / 1000 -> 0 <= T ->
  T / L <= W -> e / L <= 4 * uro * K + 3 * dl -> E / L <= 4 * uro * K * W + dl * S -> 
  102 / 100 * ((E + T / L * e + 26 * uro * (T + E)) / L) <= 36 * uro * K * W + 2 * (dl * S).
Proof.
  intros L0 W0 S0 K1 UK D0 D1 T0 HT He HE. assert (U : 0 < uro <= / 1000000) by (rewrite uro_val; lra).
  replace ((E + T / L * e + 26 * uro * (T + E)) / L) with (E / L + T / L * (e / L) + 26 * uro * (T / L + E / L)) by (field; lra).
  assert (TL : 0 <= T / L) by (apply Rmult_le_pos; [exact T0|apply Rlt_le, Rinv_0_lt_compat, L0]).
  generalize dependent (T / L). generalize dependent (e / L). generalize dependent (E / L). intros p HE q Hq r Hr R0.
  assert (q0 : 0 <= 4 * uro * K + 3 * dl) by (assert (0 <= uro * K) by (apply Rmult_le_pos; lra); lra).
  assert (A : r * q <= W * (4 * uro * K + 3 * dl)).
  { apply Rle_trans with (r * (4 * uro * K + 3 * dl)); [apply Rmult_le_compat_l; assumption|apply Rmult_le_compat_r; assumption]. }
  set (P := uro * K * W) in *. assert (P0 : 0 <= P) by (unfold P; repeat apply Rmult_le_pos; lra).
  assert (UW : uro * W <= P). { unfold P. rewrite Rmult_assoc. apply Rmult_le_compat_l; [lra|]. rewrite <- (Rmult_1_l W) at 1. apply Rmult_le_compat_r; assumption. }
  assert (DW : dl * W <= P / 1000). { apply Rle_trans with (uro / 1000 * W); [apply Rmult_le_compat_r; assumption|]. lra. }
  assert (Q0 : 0 <= dl * S) by (apply Rmult_le_pos; assumption).
  assert (HE' : p <= 4 * P + dl * S) by (unfold P; lra).
  assert (A' : r * q <= 4 * P + 3 * (dl * W)) by (unfold P; lra).
  assert (B : uro * (r + p) <= uro * W + (4 * P + dl * S) / 1000000).
  { apply Rle_trans with (uro * (W + (4 * P + dl * S))); [apply Rmult_le_compat_l; lra|]. rewrite Rmult_plus_distr_l. apply Rplus_le_compat_l.
    unfold Rdiv. rewrite (Rmult_comm _ (/ 1000000)). apply Rmult_le_compat_r; lra. }
  replace (36 * uro * K * W) with (36 * P) by (unfold P; ring). lra.
Qed.
Lemma face_bound (h H : hs) (q : V3) (s X Y Z ex ey ez ed K W dl : R) :
  let '((a, b, c), d) := h in let '((A, B, C), D) := H in let '(x, y, z) := q in
  0 < s -> Rabs x <= X -> Rabs y <= Y -> Rabs z <= Z ->
  Rabs (s * a - A) <= ex -> Rabs (s * b - B) <= ey -> Rabs (s * c - C) <= ez -> Rabs (s * d - D) <= ed ->
  let L := len3R (A, B, C) in let T := termsR H (X, Y, Z) in let e := ex + ey + ez in let E := ex * X + ey * Y + ez * Z + ed in
  0 < L -> 1 <= K -> uro * K <= / 500 -> 0 <= dl -> dl <= uro / 1000 -> 
  T <= W * L -> e <= (4 * uro * K + 3 * dl) * L -> E <= (4 * uro * K * W + dl * (X + Y + Z + 1)) * L ->
  99 / 100 * L <= s * len3R (a, b, c) /\
  Rabs (sdist h q - sdist H q) + 26 * uro * (termsR h (X, Y, Z) / len3R (a, b, c)) <= 36 * uro * K * W + 2 * (dl * (X + Y + Z + 1)).
Proof.
  destruct h as [[[a b] c] d], H as [[[A B] C] D], q as [[x y] z]. intros s0 HX HY HZ Ha Hb Hc Hd L T e E L0 K1 UK D0 D1 HT He HE.
  assert (X0 : 0 <= X) by (pose proof (Rabs_pos x); lra). assert (Y0 : 0 <= Y) by (pose proof (Rabs_pos y); lra). assert (Z0 : 0 <= Z) by (pose proof (Rabs_pos z); lra).
  assert (U : 0 < uro <= / 1000000) by (rewrite uro_val; lra).
  assert (DV : forall u v : R, u <= v * L -> u / L <= v).
  { intros u v H. apply (Rmult_le_reg_r L); [exact L0|]. unfold Rdiv. rewrite Rmult_assoc, Rinv_l, Rmult_1_r by lra. exact H. }
  assert (T0 : 0 <= T) by (unfold T; cbn; repeat apply Rplus_le_le_0_compat; apply Rabs_pos).
  assert (TL : 0 <= T / L) by (apply Rmult_le_pos; [exact T0|apply Rlt_le, Rinv_0_lt_compat, L0]).
  assert (W0 : 0 <= W) by (eapply Rle_trans; [exact TL|apply DV, HT]).
  assert (eL : e <= L / 100).
  { eapply Rle_trans; [exact He|]. unfold Rdiv. rewrite (Rmult_comm L). apply Rmult_le_compat_r; lra. }
  pose proof (pert_total ((s * a, s * b, s * c), s * d) ((A, B, C), D) (x, y, z) X Y Z ex ey ez ed HX HY HZ Ha Hb Hc Hd L0 eL) as (P1 & P2).
  fold L T e E in P1, P2.
  pose proof (len3_scale s (a, b, c)) as LS. cbn [scale3] in LS. rewrite (Rabs_pos_eq s) in LS by lra.
  pose proof (sdist_scale s ((a, b, c), d) (x, y, z) s0) as SD. pose proof (terms_scale s ((a, b, c), d) (X, Y, Z) s0) as TS.
  unfold sc in SD, TS. cbn [fst snd scale3] in SD, TS. rewrite LS in P1. split; [exact P1|].
  unfold V3 in SD, TS. rewrite SD in P2. rewrite TS in P2. eapply Rle_trans; [exact P2|].
  apply bound_fin; try assumption; [lra|apply DV; assumption|apply DV; assumption|apply DV; assumption].
Qed.
(** The six numbers of a camera, away from the extremes of the format. *)
Definition cam_range (l r b t n f : f32) : Prop :=
  (forall x, In x [l; r; b; t; n; f] -> fin x) /\
  / 2 ^ 15 <= val n <= 2 ^ 8 /\ val n < val f <= 2 ^ 15 * val n /\
  (forall x, In x [l; r; b; t] -> Rabs (val x) <= 2 ^ 15 * val n) /\
  val n <= 2 ^ 15 * (val r - val l) /\ val n <= 2 ^ 15 * (val t - val b) /\ val n <= 2 ^ 15 * (val f - val n).
Lemma big15 : 2 ^ 15 = bp 15 /\ / 2 ^ 15 = bp (-15).
Proof. exact (conj (eq_sym (bpow_pow 15)) (eq_sym (eq_trans (bpow_opp radix2 15) (f_equal Rinv (bpow_pow 15))))). Qed.
Lemma cam_frustum_range l r b t n f : cam_range l r b t n f -> PFrustumF32.frustum_range l r b t n f.
Proof.
  destruct big15 as (P15 & M15). intros (F & (N0 & N1) & (F0 & F1) & HL & D1 & D2 & D3). rewrite M15, P15 in *.
  assert (B1 : 1 <= bp 15) by (change 1 with (bp 0); apply bpow_le; lia).
  assert (G : 0 < bp (-15)) by apply bpow_gt_0.
  assert (A80 : bp 23 <= bp 40) by (apply bpow_le; lia).
  change (2 ^ 8) with (2 * (2 * (2 * (2 * (2 * (2 * (2 * (2 * 1)))))))) in N1.
  assert (E80 : bp 15 * 256 = bp 23) by (change 256 with (bp 8); rewrite <- bpow_plus; reflexivity).
  assert (E1 : bp 15 * bp (-15) = 1) by (rewrite <- bpow_plus; reflexivity).
  assert (B80 : bp 15 * val n <= bp 40) by (eapply Rle_trans; [apply (Rmult_le_compat_l (bp 15) _ 256); lra|]; lra).
  assert (C0 : bp (-40) <= bp (-15) * bp (-15)) by (rewrite <- bpow_plus; apply bpow_le; lia).
  assert (C1 : bp (-40) <= bp (-15)) by (apply bpow_le; lia).
  assert (DD : forall u : R, val n <= bp 15 * u -> bp (-40) <= Rabs u).
  { intros u Hu. eapply Rle_trans; [|apply Rle_abs]. eapply Rle_trans; [exact C0|]. 
    replace u with (bp (-15) * (bp 15 * u)) by (rewrite <- Rmult_assoc, (Rmult_comm (bp (-15))), E1; ring).
    apply Rmult_le_compat_l; lra. }
  assert (BN : 256 <= bp 40) by (change 256 with (bp 8); apply bpow_le; lia).
  assert (n0 : 0 < val n) by lra. assert (nn : bp (-40) <= Rabs (val n)) by (rewrite Rabs_pos_eq; lra).
  assert (LL : 1 * val n <= bp 15 * val n) by (apply Rmult_le_compat_r; lra).
  unfold PFrustumF32.frustum_range. split; [|repeat split; try (apply DD; assumption); try assumption; rewrite Rabs_pos_eq; lra].
  intros x Hx. split; [apply F; exact Hx|]. cbn [In] in Hx. destruct Hx as [<-|[<-|[<-|[<-|[<-|[<-|[]]]]]]].
  1-4: eapply Rle_trans; [apply HL; cbn [In]; tauto|lra].
  all: rewrite Rabs_pos_eq; lra.
Qed.
Lemma eta_bp : eta = bp (-150).
Proof. exact (eq_sym (eq_trans (bpow_opp radix2 150) (f_equal Rinv (bpow_pow 150)))). Qed.
Lemma m130 : / 2 ^ 130 = bp (-130).
Proof. exact (eq_sym (eq_trans (bpow_opp radix2 130) (f_equal Rinv (bpow_pow 130)))). Qed.
Lemma n8 : 2 ^ 8 = 256.
Proof. cbn. lra. Qed.
Lemma n15 : 2 ^ 15 = 32768.
Proof. cbn. lra. Qed.
Lemma tail_small (dl P Q W : R) : 1 <= W -> 0 <= dl -> dl <= 2 * 2 ^ 15 * eta -> 36 * uro * P * Q + 2 * (dl * W) + (W + 37) / 2 ^ 149 <= 40 / 2 ^ 24 * P * Q + W / 2 ^ 130 - 4 * uro * P * Q.
Proof.
  intros HS D0 D1. unfold Rdiv. rewrite eta2, m130. change (/ 2 ^ 24) with uro. rewrite n15, eta_bp in *.
  assert (E : bp (-130) = 1048576 * bp (-150)) by (change 1048576 with (bp 20); rewrite <- bpow_plus; reflexivity).
  pose proof (bpow_gt_0 radix2 (-150)) as G. rewrite E. set (k := bp (-150)) in *.
  assert (D2 : dl * W <= 2 * 32768 * k * W) by (apply Rmult_le_compat_r; lra).
  assert (KS : k <= k * W) by (rewrite <- (Rmult_1_r k) at 1; apply Rmult_le_compat_l; lra).
  lra.
Qed.
Lemma fin_side (h : hs) (H : hs) (q : V3) (s X Y Z ex ey ez ed K W dl n : R) :
  let '((a, b, c), d) := h in let '((A, B, C), D) := H in let '(x, y, z) := q in
  0 < s -> Rabs x <= X -> Rabs y <= Y -> Rabs z <= Z ->
  Rabs (s * a - A) <= ex -> Rabs (s * b - B) <= ey -> Rabs (s * c - C) <= ez -> Rabs (s * d - D) <= ed ->
  let L := len3R (A, B, C) in let T := termsR H (X, Y, Z) in let e := ex + ey + ez in let E := ex * X + ey * Y + ez * Z + ed in
  0 < n -> n <= L -> s <= 2 ^ 15 * n -> 1 <= K -> K <= 1 + 2 ^ 15 -> dl = 2 * s * eta / n ->
  T <= W * L -> e <= (4 * uro * K + 3 * dl) * L -> E <= (4 * uro * K * W + dl * (X + Y + Z + 1)) * L ->
  / 2 ^ 16 <= len3R (a, b, c) /\
  Rabs (sdist h q - sdist H q) + 26 / 2 ^ 24 * (termsR h (X, Y, Z) / len3R (a, b, c)) + (X + Y + Z + 38) / 2 ^ 149 <= 40 / 2 ^ 24 * K * W + (X + Y + Z + 1) / 2 ^ 130.
Proof.
  destruct h as [[[a b] c] d], H as [[[A B] C] D], q as [[x y] z]. intros s0 HX HY HZ Ha Hb Hc Hd L T e E n0 nL sn K1 K2 Ed HT He HE.
  assert (X0 : 0 <= X) by (pose proof (Rabs_pos x); lra). assert (Y0 : 0 <= Y) by (pose proof (Rabs_pos y); lra). assert (Z0 : 0 <= Z) by (pose proof (Rabs_pos z); lra).
  assert (U : 0 < uro <= / 1000000) by (rewrite uro_val; lra).
  assert (L0 : 0 < L) by lra.
  assert (EP := eta_pos). 
  assert (UK : uro * K <= / 500). { apply Rle_trans with (uro * (1 + 2 ^ 15)); [apply Rmult_le_compat_l; lra|]. rewrite uro_val, n15. lra. }
  assert (D0 : 0 <= dl). { rewrite Ed. apply Rmult_le_pos; [apply Rmult_le_pos; lra|apply Rlt_le, Rinv_0_lt_compat, n0]. }
  assert (D1 : dl <= 2 * 2 ^ 15 * eta).
  { rewrite Ed. apply (Rmult_le_reg_r n); [exact n0|]. unfold Rdiv. rewrite Rmult_assoc, Rinv_l, Rmult_1_r by lra.
    replace (2 * 2 ^ 15 * eta * n) with (2 * (2 ^ 15 * n) * eta) by ring. apply Rmult_le_compat_r; lra. }
  assert (D2 : dl <= uro / 1000).
  { eapply Rle_trans; [exact D1|]. rewrite n15, eta_bp. assert (G : bp (-150) <= bp (-100)) by (apply bpow_le; lia).
    assert (G2 : bp (-100) <= / 10000000000000000000000).
    { change (bp (-100)) with (/ IZR (2 ^ 100)). apply Rinv_le_contravar; [lra|]. apply IZR_le. lia. }
    rewrite uro_val. lra. }
  pose proof (face_bound ((a, b, c), d) ((A, B, C), D) (x, y, z) s X Y Z ex ey ez ed K W dl s0 HX HY HZ Ha Hb Hc Hd L0 K1 UK D0 D2 HT He HE) as (Q1 & Q2).
  fold L in Q1. split.
  - assert (LL : 99 / 100 <= 2 ^ 15 * len3R (a, b, c)).
    { apply (Rmult_le_reg_r n); [exact n0|]. apply Rle_trans with (s * len3R (a, b, c)); [lra|].
      replace (2 ^ 15 * len3R (a, b, c) * n) with (2 ^ 15 * n * len3R (a, b, c)) by ring. apply Rmult_le_compat_r; [apply len3_nonneg|exact sn]. }
    rewrite n15 in LL. change (2 ^ 16) with (2 * 2 ^ 15). rewrite n15. lra.
  - pose proof (tail_small dl K W (X + Y + Z + 1) ltac:(lra) D0 D1) as TS.
    assert (W0 : 0 <= W).
    { assert (0 <= T) by (unfold T; cbn; repeat apply Rplus_le_le_0_compat; apply Rabs_pos). apply (Rmult_le_reg_r L); lra. }
    assert (0 <= uro * K * W) by (repeat apply Rmult_le_pos; lra).
    change (26 / 2 ^ 24) with (26 * uro). change (40 / 2 ^ 24) with (40 * uro) in *. replace (X + Y + Z + 38) with (X + Y + Z + 1 + 37) by ring.
    set (t1 := (X + Y + Z + 1 + 37) / 2 ^ 149) in *. set (t2 := (X + Y + Z + 1) / 2 ^ 130) in *.
    apply Rle_trans with (36 * uro * K * W + 2 * (dl * (X + Y + Z + 1)) + t1); [apply Rplus_le_compat_r; exact Q2|]. lra.
Qed.
(** The exact half-spaces and the margin of each. *)
Definition view_bounds (l r b t n f : R) (q : V3) : list (hs * R) :=
  let '(x, y, z) := q in
  let k := 40 / 2 ^ 24 in let tail := (Rabs x + Rabs y + Rabs z + 1) / 2 ^ 130 in
  let mx := k * (1 + Rmax (Rabs l) (Rabs r) / n) * (Rabs x + Rabs z) + tail in
  let my := k * (1 + Rmax (Rabs b) (Rabs t) / n) * (Rabs y + Rabs z) + tail in
  [((( n, 0,  l), 0), mx); (((- n, 0, - r), 0), mx); (((0,  n,  b), 0), my); (((0, - n, - t), 0), my);
   (((0, 0, -1), - n), k * (Rabs z + n) + tail); (((0, 0, 1), f), k * (f / n) * (Rabs z + f) + tail)].
Definition glc (l r b t n f : R) (i j : nat) : R := nth (j * 4 + i) (PFrustumF.gl_frustum l r b t n f) 0.
Lemma sum_err (s u v U V e1 e2 c : R) : 0 < s -> Rabs (u - U) <= e1 -> Rabs (v - V) <= e2 -> (c = 1 \/ c = -1) -> Rabs (s * (u + c * v) - s * (U + c * V)) <= s * (e1 + e2).
Proof.
  intros s0 Hu Hv Hc. rewrite <- Rmult_minus_distr_l, Rabs_mult, (Rabs_pos_eq s) by lra. apply Rmult_le_compat_l; [lra|].
  apply Rabs_le_inv in Hu, Hv. apply Rabs_le. destruct Hc; subst c; lra.
Qed.
Lemma max_split (l r : R) : l < r -> (r - l) / 2 + Rabs (r + l) / 2 = Rmax (Rabs l) (Rabs r).
Proof. intros H. unfold Rmax. destruct (Rle_dec (Rabs l) (Rabs r)) as [L|L]; revert L; unfold Rabs; repeat destruct Rcase_abs; intros L; lra. Qed.
Definition close_to (q : V3) (X Y Z : R) (h : hs) (Hm : hs * R) : Prop :=
  / 2 ^ 16 <= len3R (fst h) /\
  Rabs (sdist h q - sdist (fst Hm) q) + 26 / 2 ^ 24 * (termsR h (X, Y, Z) / len3R (fst h)) + (X + Y + Z + 38) / 2 ^ 149 <= snd Hm.
Lemma side_x (l r n c p w u0 u1 u2 u3 v0 v1 v2 v3 x y z X Y Z : R) :
  0 < n -> Rabs l <= 2 ^ 15 * n -> Rabs r <= 2 ^ 15 * n -> l < r -> (c = 1 \/ c = -1) -> p = c * n -> w = (c * (r + l) - (r - l)) / 2 ->
  Rabs x <= X -> Rabs y <= Y -> Rabs z <= Z ->
  Rabs (u0 - 0) <= eta -> Rabs (u1 - 0) <= eta -> Rabs (u2 - -1) <= 4 * uro + eta -> Rabs (u3 - 0) <= eta ->
  Rabs (v0 - 2 * n / (r - l)) <= 4 * uro * Rabs (2 * n / (r - l)) + eta -> Rabs (v1 - 0) <= eta -> Rabs (v2 - (r + l) / (r - l)) <= 4 * uro * Rabs ((r + l) / (r - l)) + eta -> Rabs (v3 - 0) <= eta ->
  close_to (x, y, z) X Y Z ((u0 + c * v0, u1 + c * v1, u2 + c * v2), u3 + c * v3)
    (((p, 0, w), 0), 40 / 2 ^ 24 * (1 + Rmax (Rabs l) (Rabs r) / n) * (X + Z) + (X + Y + Z + 1) / 2 ^ 130).
Proof.
  intros n0 lB rB lr Hc Ep Ew HX HY HZ U0 U1 U2 U3 V0 V1 V2 V3.
  assert (X0 : 0 <= X) by (pose proof (Rabs_pos x); lra). assert (Y0 : 0 <= Y) by (pose proof (Rabs_pos y); lra). assert (Z0 : 0 <= Z) by (pose proof (Rabs_pos z); lra).
  assert (U : 0 < uro <= / 1000000) by (rewrite uro_val; lra). assert (EP := eta_pos).
  assert (B15 : 1 <= 2 ^ 15) by (rewrite n15; lra).
  pose proof (max_split l r lr) as EM. set (M := Rmax (Rabs l) (Rabs r)) in *.
  assert (M0 : 0 <= M) by (rewrite <- EM; pose proof (Rabs_pos (r + l)); lra).
  assert (MB : M <= 2 ^ 15 * n) by (unfold M; apply Rmax_lub; assumption).
  set (s := (r - l) / 2). set (dd := 2 * s * eta). set (dl := 2 * s * eta / n).
  assert (s0 : 0 < s) by (unfold s; lra). assert (sM : s <= M) by (unfold s; pose proof (Rabs_pos (r + l)); lra).
  assert (C0 : 0 <= 2 * n / (r - l)) by (apply Rmult_le_pos; [lra|apply Rlt_le, Rinv_0_lt_compat; lra]).
  assert (pn : Rabs p = n) by (rewrite Ep; destruct Hc; subst c; unfold Rabs; destruct Rcase_abs; lra).
  assert (wM : Rabs w <= M).
  { rewrite <- EM, Ew. destruct Hc; subst c; unfold Rabs; repeat destruct Rcase_abs; lra. }
  destruct (len3_comp p 0 w) as (LP & _ & LW). rewrite pn in LP. set (L := len3R (p, 0, w)) in *.
  assert (dn : dl * n = dd) by (unfold dl, dd; field; lra).
  assert (d0 : 0 <= dl) by (apply Rmult_le_pos; [apply Rmult_le_pos; lra|apply Rlt_le, Rinv_0_lt_compat, n0]).
  assert (KE : (1 + M / n) * n = n + M) by (field; lra).
  assert (MN : 0 <= M / n) by (apply Rmult_le_pos; [exact M0|apply Rlt_le, Rinv_0_lt_compat, n0]).
  assert (K2 : 1 + M / n <= 1 + 2 ^ 15).
  { apply Rplus_le_compat_l. apply (Rmult_le_reg_r n); [exact n0|]. unfold Rdiv. rewrite Rmult_assoc, Rinv_l, Rmult_1_r by lra. exact MB. }
  set (K := 1 + M / n) in *.
  assert (SL : forall u : R, 0 <= u -> u * n <= u * L) by (intros u Hu; apply Rmult_le_compat_l; assumption).
  assert (K1 : 1 <= K) by (unfold K; lra). assert (UK0 : 0 <= uro * K) by (apply Rmult_le_pos; lra).
  unfold close_to. cbn [fst snd].
  refine (fin_side ((u0 + c * v0, u1 + c * v1, u2 + c * v2), u3 + c * v3) ((p, 0, w), 0) (x, y, z) s X Y Z (4 * uro * n + dd) dd (4 * uro * M + dd) dd K (X + Z) dl n s0 HX HY HZ _ _ _ _ n0 LP _ _ K2 eq_refl _ _ _).
    + replace p with (s * (0 + c * (2 * n / (r - l)))) by (unfold s; first [rewrite Ep; field; lra|ring]). eapply Rle_trans; [apply sum_err; [exact s0|exact U0|exact V0|exact Hc]|]. apply Req_le. rewrite (Rabs_pos_eq (2 * n / (r - l))) by exact C0. unfold dd, s. field. lra.
    + replace 0 with (s * (0 + c * 0)) by (unfold s; first [rewrite Ep; field; lra|ring]). eapply Rle_trans; [apply sum_err; [exact s0|exact U1|exact V1|exact Hc]|]. unfold dd. lra.
    + replace w with (s * (-1 + c * ((r + l) / (r - l)))) by (unfold s; rewrite Ew; field; lra). eapply Rle_trans; [apply sum_err; [exact s0|exact U2|exact V2|exact Hc]|].
      apply Req_le. rewrite <- EM. unfold Rdiv at 1. rewrite Rabs_mult, (Rabs_pos_eq (/ (r - l))) by (apply Rlt_le, Rinv_0_lt_compat; lra). unfold dd, s. field. lra.
    + replace (0 : R) with (s * (0 + c * 0)) by ring. eapply Rle_trans; [apply sum_err; [exact s0|exact U3|exact V3|exact Hc]|]. unfold dd. lra.
    + eapply Rle_trans; [exact sM|exact MB].
    + unfold K. lra.
    + fold L. cbn [termsR]. rewrite !Rabs_mult, Rabs_R0, pn, (Rabs_pos_eq X X0), (Rabs_pos_eq Y Y0), (Rabs_pos_eq Z Z0).
      assert (Rabs w * Z <= L * Z) by (apply Rmult_le_compat_r; assumption). assert (n * X <= L * X) by (apply Rmult_le_compat_r; assumption). lra.
    + apply Rle_trans with ((4 * uro * K + 3 * dl) * n); [|apply SL; lra]. apply Req_le.
      replace ((4 * uro * K + 3 * dl) * n) with (4 * uro * (K * n) + 3 * (dl * n)) by ring. rewrite KE, dn. ring.
    + assert (S0 : 0 <= dl * (X + Y + Z + 1)) by (apply Rmult_le_pos; lra). assert (W0 : 0 <= uro * K * (X + Z)) by (apply Rmult_le_pos; lra).
      apply Rle_trans with ((4 * uro * K * (X + Z) + dl * (X + Y + Z + 1)) * n); [|apply SL; lra].
      replace ((4 * uro * K * (X + Z) + dl * (X + Y + Z + 1)) * n) with (4 * uro * (K * n) * (X + Z) + dl * n * (X + Y + Z + 1)) by ring. rewrite KE, dn.
      assert (0 <= uro * n * Z) by (repeat apply Rmult_le_pos; lra). assert (0 <= uro * M * X) by (repeat apply Rmult_le_pos; lra). lra.
Qed.
Lemma side_y (l r n c p w u0 u1 u2 u3 v0 v1 v2 v3 x y z X Y Z : R) :
  0 < n -> Rabs l <= 2 ^ 15 * n -> Rabs r <= 2 ^ 15 * n -> l < r -> (c = 1 \/ c = -1) -> p = c * n -> w = (c * (r + l) - (r - l)) / 2 ->
  Rabs x <= X -> Rabs y <= Y -> Rabs z <= Z ->
  Rabs (u0 - 0) <= eta -> Rabs (u1 - 0) <= eta -> Rabs (u2 - -1) <= 4 * uro + eta -> Rabs (u3 - 0) <= eta ->
  Rabs (v0 - 0) <= eta -> Rabs (v1 - 2 * n / (r - l)) <= 4 * uro * Rabs (2 * n / (r - l)) + eta -> Rabs (v2 - (r + l) / (r - l)) <= 4 * uro * Rabs ((r + l) / (r - l)) + eta -> Rabs (v3 - 0) <= eta ->
  close_to (x, y, z) X Y Z ((u0 + c * v0, u1 + c * v1, u2 + c * v2), u3 + c * v3)
    (((0, p, w), 0), 40 / 2 ^ 24 * (1 + Rmax (Rabs l) (Rabs r) / n) * (Y + Z) + (X + Y + Z + 1) / 2 ^ 130).
Proof.
  intros n0 lB rB lr Hc Ep Ew HX HY HZ U0 U1 U2 U3 V0 V1 V2 V3.
  assert (X0 : 0 <= X) by (pose proof (Rabs_pos x); lra). assert (Y0 : 0 <= Y) by (pose proof (Rabs_pos y); lra). assert (Z0 : 0 <= Z) by (pose proof (Rabs_pos z); lra).
  assert (U : 0 < uro <= / 1000000) by (rewrite uro_val; lra). assert (EP := eta_pos).
  assert (B15 : 1 <= 2 ^ 15) by (rewrite n15; lra).
  pose proof (max_split l r lr) as EM. set (M := Rmax (Rabs l) (Rabs r)) in *.
  assert (M0 : 0 <= M) by (rewrite <- EM; pose proof (Rabs_pos (r + l)); lra).
  assert (MB : M <= 2 ^ 15 * n) by (unfold M; apply Rmax_lub; assumption).
  set (s := (r - l) / 2). set (dd := 2 * s * eta). set (dl := 2 * s * eta / n).
  assert (s0 : 0 < s) by (unfold s; lra). assert (sM : s <= M) by (unfold s; pose proof (Rabs_pos (r + l)); lra).
  assert (C0 : 0 <= 2 * n / (r - l)) by (apply Rmult_le_pos; [lra|apply Rlt_le, Rinv_0_lt_compat; lra]).
  assert (pn : Rabs p = n) by (rewrite Ep; destruct Hc; subst c; unfold Rabs; destruct Rcase_abs; lra).
  assert (wM : Rabs w <= M).
  { rewrite <- EM, Ew. destruct Hc; subst c; unfold Rabs; repeat destruct Rcase_abs; lra. }
  destruct (len3_comp 0 p w) as (_ & LP & LW). rewrite pn in LP. set (L := len3R (0, p, w)) in *.
  assert (dn : dl * n = dd) by (unfold dl, dd; field; lra).
  assert (d0 : 0 <= dl) by (apply Rmult_le_pos; [apply Rmult_le_pos; lra|apply Rlt_le, Rinv_0_lt_compat, n0]).
  assert (KE : (1 + M / n) * n = n + M) by (field; lra).
  assert (MN : 0 <= M / n) by (apply Rmult_le_pos; [exact M0|apply Rlt_le, Rinv_0_lt_compat, n0]).
  assert (K2 : 1 + M / n <= 1 + 2 ^ 15).
  { apply Rplus_le_compat_l. apply (Rmult_le_reg_r n); [exact n0|]. unfold Rdiv. rewrite Rmult_assoc, Rinv_l, Rmult_1_r by lra. exact MB. }
  set (K := 1 + M / n) in *.
  assert (SL : forall u : R, 0 <= u -> u * n <= u * L) by (intros u Hu; apply Rmult_le_compat_l; assumption).
  assert (K1 : 1 <= K) by (unfold K; lra). assert (UK0 : 0 <= uro * K) by (apply Rmult_le_pos; lra).
  unfold close_to. cbn [fst snd].
  refine (fin_side ((u0 + c * v0, u1 + c * v1, u2 + c * v2), u3 + c * v3) ((0, p, w), 0) (x, y, z) s X Y Z dd (4 * uro * n + dd) (4 * uro * M + dd) dd K (Y + Z) dl n s0 HX HY HZ _ _ _ _ n0 LP _ _ K2 eq_refl _ _ _).
    + replace 0 with (s * (0 + c * 0)) by (unfold s; first [rewrite Ep; field; lra|ring]). eapply Rle_trans; [apply sum_err; [exact s0|exact U0|exact V0|exact Hc]|]. unfold dd. lra.
    + replace p with (s * (0 + c * (2 * n / (r - l)))) by (unfold s; first [rewrite Ep; field; lra|ring]). eapply Rle_trans; [apply sum_err; [exact s0|exact U1|exact V1|exact Hc]|]. apply Req_le. rewrite (Rabs_pos_eq (2 * n / (r - l))) by exact C0. unfold dd, s. field. lra.
    + replace w with (s * (-1 + c * ((r + l) / (r - l)))) by (unfold s; rewrite Ew; field; lra). eapply Rle_trans; [apply sum_err; [exact s0|exact U2|exact V2|exact Hc]|].
      apply Req_le. rewrite <- EM. unfold Rdiv at 1. rewrite Rabs_mult, (Rabs_pos_eq (/ (r - l))) by (apply Rlt_le, Rinv_0_lt_compat; lra). unfold dd, s. field. lra.
    + replace (0 : R) with (s * (0 + c * 0)) by ring. eapply Rle_trans; [apply sum_err; [exact s0|exact U3|exact V3|exact Hc]|]. unfold dd. lra.
    + eapply Rle_trans; [exact sM|exact MB].
    + unfold K. lra.
    + fold L. cbn [termsR]. rewrite !Rabs_mult, Rabs_R0, pn, (Rabs_pos_eq X X0), (Rabs_pos_eq Y Y0), (Rabs_pos_eq Z Z0).
      assert (Rabs w * Z <= L * Z) by (apply Rmult_le_compat_r; assumption). assert (n * Y <= L * Y) by (apply Rmult_le_compat_r; assumption). lra.
    + apply Rle_trans with ((4 * uro * K + 3 * dl) * n); [|apply SL; lra]. apply Req_le.
      replace ((4 * uro * K + 3 * dl) * n) with (4 * uro * (K * n) + 3 * (dl * n)) by ring. rewrite KE, dn. ring.
    + assert (S0 : 0 <= dl * (X + Y + Z + 1)) by (apply Rmult_le_pos; lra). assert (W0 : 0 <= uro * K * (Y + Z)) by (apply Rmult_le_pos; lra).
      apply Rle_trans with ((4 * uro * K * (Y + Z) + dl * (X + Y + Z + 1)) * n); [|apply SL; lra].
      replace ((4 * uro * K * (Y + Z) + dl * (X + Y + Z + 1)) * n) with (4 * uro * (K * n) * (Y + Z) + dl * n * (X + Y + Z + 1)) by ring. rewrite KE, dn.
      assert (0 <= uro * n * Z) by (repeat apply Rmult_le_pos; lra). assert (0 <= uro * M * Y) by (repeat apply Rmult_le_pos; lra). lra.
Qed.
Lemma side_z (n f c K W u0 u1 u2 u3 v0 v1 v2 v3 x y z X Y Z : R) :
  0 < n -> n < f <= 2 ^ 15 * n -> (c = 1 /\ K = 1 /\ W = Z + n \/ c = -1 /\ K = f / n /\ W = Z + f) -> 
  Rabs x <= X -> Rabs y <= Y -> Rabs z <= Z ->
  Rabs (u0 - 0) <= eta -> Rabs (u1 - 0) <= eta -> Rabs (u2 - -1) <= 4 * uro + eta -> Rabs (u3 - 0) <= eta ->
  Rabs (v0 - 0) <= eta -> Rabs (v1 - 0) <= eta -> Rabs (v2 - - (f + n) / (f - n)) <= 4 * uro * Rabs (- (f + n) / (f - n)) + eta ->
  Rabs (v3 - - (2 * f * n) / (f - n)) <= 4 * uro * Rabs (- (2 * f * n) / (f - n)) + eta ->
  close_to (x, y, z) X Y Z ((u0 + c * v0, u1 + c * v1, u2 + c * v2), u3 + c * v3)
    (((0, 0, - c), if Rle_dec 0 c then - n else f), 40 / 2 ^ 24 * K * W + (X + Y + Z + 1) / 2 ^ 130).
Proof.
  intros n0 (nf & fB) HC HX HY HZ U0 U1 U2 U3 V0 V1 V2 V3.
  assert (X0 : 0 <= X) by (pose proof (Rabs_pos x); lra). assert (Y0 : 0 <= Y) by (pose proof (Rabs_pos y); lra). assert (Z0 : 0 <= Z) by (pose proof (Rabs_pos z); lra).
  assert (U : 0 < uro <= / 1000000) by (rewrite uro_val; lra). assert (EP := eta_pos).
  assert (B15 : 1 <= 2 ^ 15) by (rewrite n15; lra).
  set (N := if Rle_dec 0 c then f else n). set (s := (f - n) / 2). set (dd := 2 * s * eta). set (dl := 2 * s * eta / N).
  assert (HN : (c = 1 /\ N = f /\ K = 1 /\ W = Z + n /\ (if Rle_dec 0 c then - n else f) = - n) \/ (c = -1 /\ N = n /\ K = f / n /\ W = Z + f /\ (if Rle_dec 0 c then - n else f) = f)).
  { unfold N. destruct HC as [(-> & -> & ->)|(-> & -> & ->)]; [left|right]; destruct Rle_dec; lra. }
  assert (HN2 : n <= N <= f /\ 0 < N /\ (c = 1 \/ c = -1)) by (destruct HN as [(-> & -> & _)|(-> & -> & _)]; lra). destruct HN2 as (HN2 & N0 & Hc).
  set (D := if Rle_dec 0 c then - n else f) in *.
  assert (KN : K * N = f) by (destruct HN as [(_ & -> & -> & _)|(_ & -> & -> & _)]; field; lra).
  assert (K1 : 1 <= K). { apply (Rmult_le_reg_r N); [exact N0|]. lra. }
  assert (K2 : K <= 1 + 2 ^ 15). { apply (Rmult_le_reg_r N); [exact N0|]. rewrite KN. assert (2 ^ 15 * n <= 2 ^ 15 * N) by (apply Rmult_le_compat_l; lra). lra. }
  assert (s0 : 0 < s) by (unfold s; lra).
  assert (sN : s <= 2 ^ 15 * N) by (assert (2 ^ 15 * n <= 2 ^ 15 * N) by (apply Rmult_le_compat_l; lra); unfold s; lra).
  assert (L1 : len3R (0, 0, - (c * N)) = N).
  { unfold len3R. cbn [dot3]. replace (0 * 0 + 0 * 0 + - (c * N) * - (c * N)) with (N * N) by (destruct Hc; subst c; ring). apply sqrt_square. lra. }
  assert (dn : dl * N = dd) by (unfold dl, dd; field; lra).
  assert (d0 : 0 <= dl) by (apply Rmult_le_pos; [apply Rmult_le_pos; lra|apply Rlt_le, Rinv_0_lt_compat, N0]).
  assert (WB : Z + n <= W) by (destruct HN as [(_ & _ & _ & -> & _)|(_ & _ & _ & -> & _)]; lra).
  assert (IR : 0 < / (f - n)) by (apply Rinv_0_lt_compat; lra).
  pose proof (fin_side ((u0 + c * v0, u1 + c * v1, u2 + c * v2), u3 + c * v3) ((0, 0, - (c * N)), N * D) (x, y, z) s X Y Z dd dd (4 * uro * f + dd) (4 * uro * (f * n) + dd) K W dl N s0 HX HY HZ) as Q.
  cbv beta iota zeta in Q. rewrite L1 in Q.
  assert (SE : sdist ((0, 0, - (c * N)), N * D) (x, y, z) = sdist ((0, 0, - c), D) (x, y, z)).
  { assert (L2 : len3R (0, 0, - c) = 1).
    { unfold len3R. cbn [dot3]. replace (0 * 0 + 0 * 0 + - c * - c) with 1 by (destruct Hc; subst c; ring). apply sqrt_1. }
    unfold sdist. cbn [fst]. rewrite L1, L2. unfold hval. cbn [fst snd dot3]. field. lra. }
  rewrite SE in Q. unfold close_to. cbn [fst snd]. apply Q; clear Q SE.
  - replace 0 with (s * (0 + c * 0)) by ring. eapply Rle_trans; [apply sum_err; [exact s0|exact U0|exact V0|exact Hc]|]. unfold dd. lra.
  - replace 0 with (s * (0 + c * 0)) by ring. eapply Rle_trans; [apply sum_err; [exact s0|exact U1|exact V1|exact Hc]|]. unfold dd. lra.
  - replace (- (c * N)) with (s * (-1 + c * (- (f + n) / (f - n)))).
    + eapply Rle_trans; [apply sum_err; [exact s0|exact U2|exact V2|exact Hc]|]. apply Req_le.
      unfold Rdiv at 1. rewrite Rabs_mult, Rabs_Ropp, (Rabs_pos_eq (/ (f - n))), (Rabs_pos_eq (f + n)) by lra. unfold dd, s. field. lra.
    + unfold s. destruct HN as [(-> & -> & _)|(-> & -> & _)]; field; lra.
  - replace (N * D) with (s * (0 + c * (- (2 * f * n) / (f - n)))).
    + eapply Rle_trans; [apply sum_err; [exact s0|exact U3|exact V3|exact Hc]|]. apply Req_le.
      assert (0 <= 2 * f * n) by (repeat apply Rmult_le_pos; lra).
      unfold Rdiv at 1. rewrite Rabs_mult, Rabs_Ropp, (Rabs_pos_eq (/ (f - n))), (Rabs_pos_eq (2 * f * n)) by lra. unfold dd, s. field. lra.
    + unfold s. destruct HN as [(-> & -> & _ & _ & ->)|(-> & -> & _ & _ & ->)]; field; lra.
  - exact N0.
  - lra.
  - exact sN.
  - exact K1.
  - exact K2.
  - reflexivity.
  - cbn [termsR]. rewrite !Rmult_0_l, !Rabs_R0, !Rabs_mult, Rabs_Ropp, Rabs_mult, (Rabs_pos_eq N), (Rabs_pos_eq Z) by lra.
    replace (Rabs c) with 1 by (destruct Hc; subst c; [symmetry; apply Rabs_pos_eq; lra|rewrite Rabs_left; lra]).
    replace (Rabs D * N) with (N * Rabs D) by ring. apply Req_le. destruct HN as [(_ & _ & _ & -> & ->)|(_ & _ & _ & -> & ->)]; [rewrite Rabs_left|rewrite Rabs_pos_eq]; try lra; ring.
  - apply Req_le. replace ((4 * uro * K + 3 * dl) * N) with (4 * uro * (K * N) + 3 * (dl * N)) by ring. rewrite KN, dn. ring.
  - replace ((4 * uro * K * W + dl * (X + Y + Z + 1)) * N) with (4 * uro * (K * N) * W + dl * N * (X + Y + Z + 1)) by ring. rewrite KN, dn.
    assert (uro * f * (Z + n) <= uro * f * W) by (apply Rmult_le_compat_l; [apply Rmult_le_pos; lra|exact WB]). lra.
Qed.
Lemma view_real (l r b t n f : R) (g : nat -> nat -> R) (x y z X Y Z : R) :
  0 < n -> n < f <= 2 ^ 15 * n -> Rabs l <= 2 ^ 15 * n -> Rabs r <= 2 ^ 15 * n -> Rabs b <= 2 ^ 15 * n -> Rabs t <= 2 ^ 15 * n -> l < r -> b < t ->
  Rabs x <= X -> Rabs y <= Y -> Rabs z <= Z ->
  (forall i j, (i < 4)%nat -> (j < 4)%nat -> Rabs (g i j - glc l r b t n f i j) <= 4 * uro * Rabs (glc l r b t n f i j) + eta) ->
  Forall2 (close_to (x, y, z) X Y Z) (faces g) (view_bounds l r b t n f (X, Y, Z)).
Proof.
  intros n0 nf lB rB bB tB lr bt HX HY HZ HG.
  assert (X0 : 0 <= X) by (pose proof (Rabs_pos x); lra). assert (Y0 : 0 <= Y) by (pose proof (Rabs_pos y); lra). assert (Z0 : 0 <= Z) by (pose proof (Rabs_pos z); lra).
  unfold faces, view_bounds. rewrite (Rabs_pos_eq X X0), (Rabs_pos_eq Y Y0), (Rabs_pos_eq Z Z0). cbv zeta.
  assert (Z1 : forall i j, (i < 4)%nat -> (j < 4)%nat -> glc l r b t n f i j = 0 -> Rabs (g i j - 0) <= eta).
  { intros i j Hi Hj E. specialize (HG i j Hi Hj). rewrite E, Rabs_R0 in HG. lra. }
  assert (M1 : Rabs (g 3%nat 2%nat - -1) <= 4 * uro + eta).
  { specialize (HG 3%nat 2%nat ltac:(lia) ltac:(lia)). change (glc l r b t n f 3 2) with (-1) in HG. rewrite (Rabs_left (-1)) in HG by lra. lra. }
  assert (CE : forall i j v, (i < 4)%nat -> (j < 4)%nat -> glc l r b t n f i j = v -> Rabs (g i j - v) <= 4 * uro * Rabs v + eta) by (intros i j v Hi Hj <-; apply HG; assumption).
  repeat apply Forall2_cons; [| | | | | |apply Forall2_nil]; unfold face.
  - apply side_x; try assumption; try lra; try (apply Z1; [lia|lia|reflexivity]); apply CE; first [lia|reflexivity].
  - apply side_x; try assumption; try lra; try (apply Z1; [lia|lia|reflexivity]); apply CE; first [lia|reflexivity].
  - apply side_y; try assumption; try lra; try (apply Z1; [lia|lia|reflexivity]); apply CE; first [lia|reflexivity].
  - apply side_y; try assumption; try lra; try (apply Z1; [lia|lia|reflexivity]); apply CE; first [lia|reflexivity].
  - pose proof (side_z n f 1 1 (Z + n) (g 3%nat 0%nat) (g 3%nat 1%nat) (g 3%nat 2%nat) (g 3%nat 3%nat) (g 2%nat 0%nat) (g 2%nat 1%nat) (g 2%nat 2%nat) (g 2%nat 3%nat) x y z X Y Z n0 nf) as Q.
    destruct (Rle_dec 0 1) as [_|B]; [|exfalso; lra]. rewrite Rmult_1_r in Q. replace (-1) with (- (1)) by lra.
    apply Q; try assumption; try lra; try (apply Z1; [lia|lia|reflexivity]); apply CE; first [lia|reflexivity].
  - pose proof (side_z n f (-1) (f / n) (Z + f) (g 3%nat 0%nat) (g 3%nat 1%nat) (g 3%nat 2%nat) (g 3%nat 3%nat) (g 2%nat 0%nat) (g 2%nat 1%nat) (g 2%nat 2%nat) (g 2%nat 3%nat) x y z X Y Z n0 nf) as Q.
    destruct (Rle_dec 0 (-1)) as [B|_]; [exfalso; lra|]. replace (- -1) with 1 in Q by ring.
    apply Q; try assumption; try (right; repeat split; reflexivity); try (apply Z1; [lia|lia|reflexivity]); apply CE; first [lia|reflexivity].
Qed.
(** C156: the half-spaces are those of the viewing frustum. *)
Theorem C156_half_spaces_of_the_frustum :
  forall (l r b t n f : R) (q : V3), 0 < n < f -> l < r -> b < t ->
  (in_frustum l r b t n f q <-> forall H m, In (H, m) (view_bounds l r b t n f q) -> 0 <= hval H q).
Proof.
  intros l r b t n f [[x y] z] Hn Hl Hb. unfold view_bounds, in_frustum, in_pyramid. split.
  - intros (Hz & k & k0 & Ek & Hx & Hy) H m HI.
    assert (EK : n = - (k * z)) by lra. assert (ZN : 0 < - z) by lra.
    cbn [In] in HI. destruct HI as [E|[E|[E|[E|[E|[E|[]]]]]]]; injection E as <- _; unfold hval; cbn [fst snd dot3].
    + rewrite EK. replace (- (k * z) * x + 0 * y + l * z + 0) with (- z * (k * x - l)) by ring. apply Rmult_le_pos; lra.
    + rewrite EK. replace (- - (k * z) * x + 0 * y + - r * z + 0) with (- z * (r - k * x)) by ring. apply Rmult_le_pos; lra.
    + rewrite EK. replace (0 * x + - (k * z) * y + b * z + 0) with (- z * (k * y - b)) by ring. apply Rmult_le_pos; lra.
    + rewrite EK. replace (0 * x + - - (k * z) * y + - t * z + 0) with (- z * (t - k * y)) by ring. apply Rmult_le_pos; lra.
    + lra.
    + lra.
  - intros HA.
    pose proof (HA _ _ (or_introl eq_refl)) as H1. pose proof (HA _ _ (or_intror (or_introl eq_refl))) as H2.
    pose proof (HA _ _ (or_intror (or_intror (or_introl eq_refl)))) as H3. pose proof (HA _ _ (or_intror (or_intror (or_intror (or_introl eq_refl))))) as H4.
    pose proof (HA _ _ (or_intror (or_intror (or_intror (or_intror (or_introl eq_refl)))))) as H5.
    pose proof (HA _ _ (or_intror (or_intror (or_intror (or_intror (or_intror (or_introl eq_refl))))))) as H6. clear HA.
    unfold hval in *. cbn [fst snd dot3] in *. split; [lra|].
    assert (ZN : 0 < - z) by lra. set (k := n / - z). assert (Ek : k * - z = n) by (unfold k; field; lra).
    assert (k0 : 0 < k) by (apply Rmult_lt_0_compat; [lra|apply Rinv_0_lt_compat; lra]).
    exists k. split; [exact k0|]. split; [lra|]. rewrite <- Ek in H1, H2, H3, H4.
    split; split; apply (Rmult_le_reg_l (- z)); try exact ZN; lra.
Qed.
Print Assumptions C156_half_spaces_of_the_frustum.

Lemma quot_bound (u d n k c : R) : 0 < n -> n <= k * d -> 0 < k -> Rabs u <= c * n -> 0 <= c -> Rabs (u / d) <= c * k.
Proof.
  intros n0 Hd k0 Hu c0. assert (d0 : 0 < d) by (apply (Rmult_lt_reg_l k); lra).
  unfold Rdiv. rewrite Rabs_mult, (Rabs_pos_eq (/ d)) by (apply Rlt_le, Rinv_0_lt_compat, d0).
  apply (Rmult_le_reg_r d); [exact d0|]. rewrite Rmult_assoc, Rinv_l, Rmult_1_r by lra.
  eapply Rle_trans; [exact Hu|]. rewrite Rmult_assoc. apply Rmult_le_compat_l; assumption.
Qed.
Lemma glc_bound (l r b t n f : R) : / 2 ^ 15 <= n <= 2 ^ 8 -> n < f <= 2 ^ 15 * n ->
  Rabs l <= 2 ^ 15 * n -> Rabs r <= 2 ^ 15 * n -> Rabs b <= 2 ^ 15 * n -> Rabs t <= 2 ^ 15 * n ->
  n <= 2 ^ 15 * (r - l) -> n <= 2 ^ 15 * (t - b) -> n <= 2 ^ 15 * (f - n) ->
  forall i j, Rabs (glc l r b t n f i j) <= 2 * 2 ^ 15 * 2 ^ 8 * 2 ^ 15.
Proof.
  rewrite n15, n8. intros N F Hl Hr Hb Ht D1 D2 D3. assert (n0 : 0 < n) by lra.
  assert (A : forall u d, n <= 32768 * d -> Rabs u <= 2 * 32768 * 256 * n -> Rabs (u / d) <= 2 * 32768 * 256 * 32768).
  { intros u d Hd Hu. refine (quot_bound u d n _ _ n0 Hd _ Hu _); lra. }
  assert (Z0 : Rabs 0 <= 2 * 32768 * 256 * 32768) by (rewrite Rabs_R0; lra).
  assert (FN : 2 * f * n <= 2 * 32768 * 256 * n).
  { apply Rmult_le_compat_r; [lra|]. eapply Rle_trans with (2 * (32768 * n)); lra. }
  assert (ALL : Forall (fun v => Rabs v <= 2 * 32768 * 256 * 32768) (PFrustumF.gl_frustum l r b t n f)).
  { unfold PFrustumF.gl_frustum. repeat apply Forall_cons; try apply Forall_nil; try exact Z0; try (rewrite Rabs_left by lra; lra);
    apply A; try assumption; try (rewrite Rabs_Ropp); first [eapply Rle_trans; [apply Rabs_triang|]; rewrite ?(Rabs_pos_eq f), ?(Rabs_pos_eq n) by lra; lra | rewrite Rabs_pos_eq; [lra|repeat apply Rmult_le_pos; lra] ]. }
  intros i j. unfold glc. destruct (Nat.lt_ge_cases (j * 4 + i) (length (PFrustumF.gl_frustum l r b t n f))) as [H|H].
  - rewrite Forall_forall in ALL. apply ALL, nth_In, H.
  - rewrite nth_overflow by exact H. exact Z0.
Qed.
Lemma F2_length {A B : Type} (Q : A -> B -> Prop) la lb : Forall2 Q la lb -> length la = length lb.
Proof. induction 1; cbn; congruence. Qed.
(** The matrix of the camera and the planes the culler stores. *)
Lemma camera_planes (cfg : Cfg) (l r b t n f : f32) : cam_range l r b t n f ->
  exists m cl P hs6, frf_compute_matrix [l; r; b; t; n; f] = Ok m /\ fcf_setup m = Ok cl /\ fc_planes cl = map arr P /\
  Forall2 near_unit P hs6 /\ (forall h, In h hs6 -> / 2 ^ 16 <= len3R (fst h)) /\
  forall x y z X Y Z, Rabs x <= X -> Rabs y <= Y -> Rabs z <= Z ->
    Forall2 (close_to (x, y, z) X Y Z) hs6 (view_bounds (val l) (val r) (val b) (val t) (val n) (val f) (X, Y, Z)).
Proof.
  intros CR. destruct (PFrustumF32.C155_matrices_accurate cfg (Build_RLim 1 1 Rlt_0_1 Rlt_0_1) l r b t n f (cam_frustum_range _ _ _ _ _ _ CR)) as (m & mo & Em & _ & _ & _ & NM & _).
  destruct CR as (FI & N & F & HB & D1 & D2 & D3).
  assert (n0 : 0 < val n) by (assert (0 < / 2 ^ 15) by (rewrite n15; lra); lra).
  assert (NE : forall i : nat, fin (nth i m f32_zero) /\ Rabs (val (nth i m f32_zero) - nth i (PFrustumF.gl_frustum (val l) (val r) (val b) (val t) (val n) (val f)) 0) <= 4 * uro * Rabs (nth i (PFrustumF.gl_frustum (val l) (val r) (val b) (val t) (val n) (val f)) 0) + eta).
  { intros i. clear Em. revert NM. generalize (PFrustumF.gl_frustum (val l) (val r) (val b) (val t) (val n) (val f)) as G. intros G NM. revert i. induction NM as [|x v m' G' H _ IH]; intros [|i]; cbn [nth].
    - split; [reflexivity|]. change (val f32_zero) with 0. rewrite Rminus_0_r, Rabs_R0. pose proof eta_pos. lra.
    - split; [reflexivity|]. change (val f32_zero) with 0. rewrite Rminus_0_r, Rabs_R0. pose proof eta_pos. lra.
    - exact H.
    - apply IH. }
  assert (LM : length m = 16%nat) by (rewrite (F2_length _ _ _ NM); reflexivity).
  set (g := fun i j : nat => nth (j * 4 + i) m f32_zero).
  assert (RM : repM 4 4 m g).
  { split; [exact LM|]. intros i j Hi Hj. unfold g. apply nth_error_nth'. rewrite LM. lia. }
  assert (B15 : 2 ^ 15 = 32768) by exact n15.
  assert (l0 : Rabs (val l) <= 2 ^ 15 * val n) by (apply HB; cbn [In]; tauto). assert (r0 : Rabs (val r) <= 2 ^ 15 * val n) by (apply HB; cbn [In]; tauto).
  assert (b0 : Rabs (val b) <= 2 ^ 15 * val n) by (apply HB; cbn [In]; tauto). assert (t0 : Rabs (val t) <= 2 ^ 15 * val n) by (apply HB; cbn [In]; tauto).
  pose proof (glc_bound _ _ _ _ _ _ N F l0 r0 b0 t0 D1 D2 D3) as GB.
  assert (OK : okm g).
  { intros i j Hi Hj. destruct (NE (j * 4 + i)%nat) as (F1 & E1). split; [exact F1|]. specialize (GB i j). fold (g i j) in E1. fold (glc (val l) (val r) (val b) (val t) (val n) (val f) i j) in E1.
    apply abs_tri_err in E1. assert (U : uro <= / 1000000) by (rewrite uro_val; lra). assert (P0 := Rabs_pos (glc (val l) (val r) (val b) (val t) (val n) (val f) i j)).
    assert (ES : eta <= 1) by (rewrite eta_bp; change 1 with (bp 0); apply bpow_le; lia).
    assert (Q : 4 * uro * Rabs (glc (val l) (val r) (val b) (val t) (val n) (val f) i j) <= / 2 * Rabs (glc (val l) (val r) (val b) (val t) (val n) (val f) i j)) by (apply Rmult_le_compat_r; lra).
    eapply Rle_trans; [exact E1|]. 
    assert (Q1 : 2 ^ 40 = 1099511627776) by (cbn; lra). rewrite n15, n8 in GB. lra. }
  assert (lr : val l < val r) by (rewrite B15 in D1; lra). assert (bt : val b < val t) by (rewrite B15 in D2; lra).
  assert (VR : forall x y z X Y Z, Rabs x <= X -> Rabs y <= Y -> Rabs z <= Z ->
    Forall2 (close_to (x, y, z) X Y Z) (faces (vals g)) (view_bounds (val l) (val r) (val b) (val t) (val n) (val f) (X, Y, Z))).
  { intros x y z X Y Z HX HY HZ. apply view_real; try assumption. intros i j Hi Hj. apply (NE (j * 4 + i)%nat). }
  assert (HL : forall h, In h (faces (vals g)) -> / 2 ^ 16 <= len3R (fst h)).
  { intros h Hh. destruct (Forall2_In_l _ _ _ _ (VR 0 0 0 0 0 0 ltac:(rewrite Rabs_R0; lra) ltac:(rewrite Rabs_R0; lra) ltac:(rewrite Rabs_R0; lra)) Hh) as (Hm & _ & C & _). exact C. }
  destruct (C154_setup_planes_in_float cfg m g RM OK HL) as (cl & P & E1 & E2 & E3).
  exists m, cl, P, (faces (vals g)). repeat (split; [assumption|]). exact VR.
Qed.

Lemma close_from (x y z X Y Z : R) h Hm a e : close_to (x, y, z) X Y Z h Hm -> Rabs (a - sdist h (x, y, z)) + e <= 26 / 2 ^ 24 * (termsR h (X, Y, Z) / len3R (fst h)) + (X + Y + Z + 38) / 2 ^ 149 ->
  Rabs (a - sdist (fst Hm) (x, y, z)) + e <= snd Hm.
Proof.
  intros (_ & C) H. replace (a - sdist (fst Hm) (x, y, z)) with ((a - sdist h (x, y, z)) + (sdist h (x, y, z) - sdist (fst Hm) (x, y, z))) by ring.
  pose proof (Rabs_triang (a - sdist h (x, y, z)) (sdist h (x, y, z) - sdist (fst Hm) (x, y, z))). lra.
Qed.
Lemma Forall2_two {A B C : Type} (Q : A -> B -> Prop) (P : B -> C -> Prop) la lb lc a : Forall2 Q la lb -> Forall2 P lb lc -> In a la -> exists b c, In c lc /\ Q a b /\ P b c.
Proof. intros H1 H2 Ha. destruct (Forall2_In_l _ _ _ _ H1 Ha) as (b & Hb & Hq). destruct (Forall2_In_l _ _ _ _ H2 Hb) as (c & Hc & Hp). exists b, c. auto. Qed.
Lemma Forall2_two_r {A B C : Type} (Q : A -> B -> Prop) (P : B -> C -> Prop) la lb lc c : Forall2 Q la lb -> Forall2 P lb lc -> In c lc -> exists a b, In a la /\ Q a b /\ P b c.
Proof. intros H1 H2 Hc. destruct (Forall2_In_r _ _ _ _ H2 Hc) as (b & Hb & Hp). destruct (Forall2_In_r _ _ _ _ H1 Hb) as (a & Ha & Hq). exists a, b. auto. Qed.
Lemma view_bounds_len l r b t n f q Hm : 0 < n -> In Hm (view_bounds l r b t n f q) -> 0 < len3R (fst (fst Hm)).
Proof.
  intros n0. destruct q as [[x y] z]. unfold view_bounds. cbn [In]. intros HI.
  assert (P : forall p q w : R, p <> 0 \/ q <> 0 \/ w <> 0 -> 0 < len3R (p, q, w)).
  { intros p q w H. destruct (len3_comp p q w) as (A1 & A2 & A3). destruct H as [H|[H|H]]; apply Rabs_pos_lt in H; lra. }
  destruct HI as [<-|[<-|[<-|[<-|[<-|[<-|[]]]]]]]; cbn [fst snd]; apply P; first [left; lra|right; left; lra|right; right; lra].
Qed.
Lemma view_abs l r b t n f x y z : view_bounds l r b t n f (Rabs x, Rabs y, Rabs z) = view_bounds l r b t n f (x, y, z).
Proof. unfold view_bounds. rewrite !Rabs_Rabsolu. reflexivity. Qed.

(** C156: a camera given by six floats, its projection matrix, the culler set up
    from it and the test of a sphere, all in float, against the exact frustum of
    the six numbers. *)
Theorem C156_camera_sphere_culling :
  forall (cfg : Cfg) (l r b t n f x y z rad : f32),
  cam_range l r b t n f -> sane x -> sane y -> sane z -> sane rad ->
  let c := (val x, val y, val z) in
  let F := view_bounds (val l) (val r) (val b) (val t) (val n) (val f) c in
  exists m cl v, frf_compute_matrix [l; r; b; t; n; f] = Ok m /\ fcf_setup m = Ok cl /\ fc_test_sphere cl [x; y; z; rad] = Ok v /\
  (v = V_NONE -> exists H mg, In (H, mg) F /\ forall q, in_ball c (val rad) q -> sdist H q <= mg) /\
  (v = V_FULL -> forall H mg q, In (H, mg) F -> in_ball c (val rad) q -> - mg <= sdist H q) /\
  (forall q, in_ball c (val rad) q -> (forall H mg, In (H, mg) F -> mg < sdist H q) -> v <> V_NONE) /\
  ((exists H mg, In (H, mg) F /\ sdist H c <= - val rad - mg) -> v = V_NONE) /\
  (0 < val rad -> (forall H mg, In (H, mg) F -> val rad + mg <= sdist H c) -> v = V_FULL).
Proof.
  intros cfg l r b t n f x y z rad CR Hx Hy Hz Hr c F. destruct (camera_planes cfg l r b t n f CR) as (m & cl & P & h6 & Em & Ec & EP & NU & HL & VR).
  assert (n0 : 0 < val n) by (destruct CR as (_ & N & _); assert (0 < / 2 ^ 15) by (rewrite n15; lra); lra).
  assert (LP : forall h, In h h6 -> 0 < len3R (fst h)). { intros h Hh. eapply Rlt_le_trans; [apply pow_pos_inv|apply HL, Hh]. }
  assert (SP : forall p, In p P -> sane4 p). { intros p Hp. destruct (Forall2_In_l _ _ _ _ NU Hp) as (h & Hh & N). apply (sphere_margin p h c (LP h Hh) N). }
  destruct (C153_sphere_culling_in_float cl P x y z rad EP SP Hx Hy Hz Hr) as (v & Ev & C1 & C2 & C3 & C4). fold c in C1, C2, C3, C4.
  specialize (VR (val x) (val y) (val z) (Rabs (val x)) (Rabs (val y)) (Rabs (val z)) (Rle_refl _) (Rle_refl _) (Rle_refl _)). rewrite view_abs in VR. fold c F in VR.
  assert (MG : forall p h Hm, In h h6 -> near_unit p h -> close_to c (Rabs (val x)) (Rabs (val y)) (Rabs (val z)) h Hm ->
    Rabs (hval (hsv p) c - sdist (fst Hm) c) + margin (hsv p) c <= snd Hm).
  { intros p h Hm Hh N C. apply (close_from _ _ _ _ _ _ h Hm _ _ C). destruct (sphere_margin p h c (LP h Hh) N) as (_ & M). eapply Rle_trans; [exact M|].
    unfold setup_margin, c. replace (termsR h (Rabs (val x), Rabs (val y), Rabs (val z))) with (termsR h (val x, val y, val z)) by (destruct h as [[[a1 a2] a3] a4]; cbn [termsR]; rewrite !Rabs_mult, !Rabs_Rabsolu; reflexivity).
    pose proof (pow_pos_inv 53) as P53. pose proof (pow_pos_inv 149) as P149. specialize (LP h Hh).
    assert (T0 : 0 <= termsR h (val x, val y, val z) / len3R (fst h)).
    { apply Rmult_le_pos; [|apply Rlt_le, Rinv_0_lt_compat, LP]. destruct h as [[[a1 a2] a3] a4]; cbn [termsR]; repeat apply Rplus_le_le_0_compat; apply Rabs_pos. }
    apply Rplus_le_compat; [apply Rmult_le_compat_r; [exact T0|]|]; unfold Rdiv; apply Rmult_le_compat_r; lra. }
  assert (FL : forall p, In p P -> exists Hm, In Hm F /\ Rabs (hval (hsv p) c - sdist (fst Hm) c) + margin (hsv p) c <= snd Hm).
  { intros p Hp. destruct (Forall2_In_l _ _ _ _ NU Hp) as (h & Hh & N). destruct (Forall2_In_l _ _ _ _ VR Hh) as (Hm & HI & C). exists Hm. split; [exact HI|]. exact (MG p h Hm Hh N C). }
  assert (FR : forall Hm, In Hm F -> exists p, In p P /\ Rabs (hval (hsv p) c - sdist (fst Hm) c) + margin (hsv p) c <= snd Hm).
  { intros Hm HI. destruct (Forall2_In_r _ _ _ _ VR HI) as (h & Hh & C). destruct (Forall2_In_r _ _ _ _ NU Hh) as (p & Hp & N). exists p. split; [exact Hp|]. exact (MG p h Hm Hh N C). }
  assert (LF : forall H mg, In (H, mg) F -> 0 < len3R (fst H)) by (intros H mg HI; exact (view_bounds_len _ _ _ _ _ _ _ (H, mg) n0 HI)).
  exists m, cl, v. repeat (split; [assumption|]).
  assert (N : v = V_NONE -> exists H mg, In (H, mg) F /\ forall q, in_ball c (val rad) q -> sdist H q <= mg).
  { intros Hv. destruct (C1 Hv) as (p & Hp & H). destruct (FL p Hp) as ((H' & mg) & HI & M). exists H', mg. split; [exact HI|]. intros q Hq.
    pose proof (sdist_ball H' c (val rad) q (LF _ _ HI) Hq) as B. apply Rabs_le_inv in B. cbn [fst snd] in M. pose proof (Rabs_fact (hval (hsv p) c - sdist H' c)). lra. }
  split; [exact N|]. split; [|split; [|split]].
  - intros Hv H mg q HI Hq. destruct (FR _ HI) as (p & Hp & M). specialize (C2 Hv p Hp). cbn [fst snd] in M.
    pose proof (sdist_ball H c (val rad) q (LF _ _ HI) Hq) as B. apply Rabs_le_inv in B. pose proof (Rabs_fact (hval (hsv p) c - sdist H c)). lra.
  - intros q Hq Hin Hv. destruct (N Hv) as (H & mg & HI & A). specialize (A q Hq). specialize (Hin H mg HI). lra.
  - intros (H & mg & HI & A). apply C3. destruct (FR _ HI) as (p & Hp & M). exists p. split; [exact Hp|]. cbn [fst snd] in M. pose proof (Rabs_fact (hval (hsv p) c - sdist H c)). lra.
  - intros R0 A. apply C4; [exact R0|]. intros p Hp. destruct (FL p Hp) as ((H & mg) & HI & M). specialize (A H mg HI). cbn [fst snd] in M. pose proof (Rabs_fact (hval (hsv p) c - sdist H c)). lra.
Qed.
Print Assumptions C156_camera_sphere_culling.

(** The same for an axis-aligned box. *)
Theorem C156_camera_box_culling :
  forall (cfg : Cfg) (wide : bool) (l r b t n f x0 x1 y0 y1 z0 z1 : f32),
  cam_range l r b t n f -> sane x0 -> sane x1 -> sane y0 -> sane y1 -> sane z0 -> sane z1 ->
  let box := in_span (val x0) (val x1) (val y0) (val y1) (val z0) (val z1) in
  let F := view_bounds (val l) (val r) (val b) (val t) (val n) (val f) (reach (val x0) (val x1), reach (val y0) (val y1), reach (val z0) (val z1)) in
  exists m cl v, frf_compute_matrix [l; r; b; t; n; f] = Ok m /\ fcf_setup m = Ok cl /\ fcf_test_aabb wide cl [x0; x1] [y0; y1] [z0; z1] = Ok v /\
  (v = V_NONE -> exists H mg, In (H, mg) F /\ forall q, box q -> sdist H q <= mg) /\
  (v = V_FULL -> forall H mg q, In (H, mg) F -> box q -> - mg <= sdist H q) /\
  (forall q, box q -> (forall H mg, In (H, mg) F -> mg < sdist H q) -> v <> V_NONE) /\
  ((exists H mg, In (H, mg) F /\ forall q, box q -> sdist H q < - mg) -> v = V_NONE) /\
  ((forall H mg q, In (H, mg) F -> box q -> mg <= sdist H q) -> v = V_FULL).
Proof.
  intros cfg wide l r b t n f x0 x1 y0 y1 z0 z1 CR X0 X1 Y0 Y1 Z0 Z1 box F. destruct (camera_planes cfg l r b t n f CR) as (m & cl & P & h6 & Em & Ec & EP & NU & HL & VR).
  assert (LP : forall h, In h h6 -> 0 < len3R (fst h)). { intros h Hh. eapply Rlt_le_trans; [apply pow_pos_inv|apply HL, Hh]. }
  assert (SP : forall p, In p P -> sane4 p). { intros p Hp. destruct (Forall2_In_l _ _ _ _ NU Hp) as (h & Hh & N). apply (sphere_margin p h (0, 0, 0) (LP h Hh) N). }
  destruct (C153_box_culling_in_float cfg wide cl P x0 x1 y0 y1 z0 z1 EP SP X0 X1 Y0 Y1 Z0 Z1) as (v & Ev & C1 & C2 & C3 & C4). fold box in C1, C2, C3, C4.
  exists m, cl, v. repeat (split; [assumption|]).
  set (bm := fun p => box_margin (hsv p) (val x0) (val x1) (val y0) (val y1) (val z0) (val z1)) in *.
  assert (CL : forall q, box q -> Forall2 (close_to q (reach (val x0) (val x1)) (reach (val y0) (val y1)) (reach (val z0) (val z1))) h6 F).
  { intros [[x y] z] (Bx & By & Bz). apply VR; apply reach_in; assumption. }
  assert (MG : forall p h Hm q, In h h6 -> near_unit p h -> box q -> close_to q (reach (val x0) (val x1)) (reach (val y0) (val y1)) (reach (val z0) (val z1)) h Hm ->
    Rabs (hval (hsv p) q - sdist (fst Hm) q) + bm p <= snd Hm).
  { intros p h Hm [[x y] z] Hh N Hq C. apply (close_from _ _ _ _ _ _ h Hm _ _ C). apply (box_margin_setup p h _ _ _ _ _ _ (x, y, z)); [apply LP, Hh|exact N|exact Hq]. }
  (* the list of half-spaces does not depend on the point *)
  assert (P6 : Forall2 (fun p Hm => forall q, box q -> Rabs (hval (hsv p) q - sdist (fst Hm) q) + bm p <= snd Hm) P F).
  { assert (GEN : forall P' h' F', Forall2 near_unit P' h' -> (forall q, box q -> Forall2 (close_to q (reach (val x0) (val x1)) (reach (val y0) (val y1)) (reach (val z0) (val z1))) h' F') ->
      (forall h, In h h' -> In h h6) -> length h' = length F' -> Forall2 (fun p Hm => forall q, box q -> Rabs (hval (hsv p) q - sdist (fst Hm) q) + bm p <= snd Hm) P' F').
    { intros P' h' F' HN. revert F'. induction HN as [|p h P' h' N HN IH]; intros F' HC HI HLn.
      - destruct F'; [constructor|discriminate HLn].
      - destruct F' as [|Hm F']; [discriminate HLn|]. constructor.
        + intros q Hq. specialize (HC q Hq). inversion HC; subst. eapply MG; [apply HI; left; reflexivity|exact N|exact Hq|assumption].
        + apply IH; [intros q Hq; specialize (HC q Hq); inversion HC; subst; assumption|intros h0 Hh0; apply HI; right; exact Hh0|injection HLn; auto]. }
    apply (GEN P h6 F NU CL (fun h H => H)).
    assert (B0 : box (val x0, val y0, val z0)) by (unfold box, in_span, between_R; repeat split; first [apply Rmin_l|apply Rmax_l|unfold Rmin, Rmax; repeat destruct Rle_dec; lra]).
    exact (F2_length _ _ _ (CL _ B0)). }
  assert (N : v = V_NONE -> exists H mg, In (H, mg) F /\ forall q, box q -> sdist H q <= mg).
  { intros Hv. destruct (C1 Hv) as (p & Hp & H). destruct (Forall2_In_l _ _ _ _ P6 Hp) as ((H' & mg) & HI & M). exists H', mg. split; [exact HI|]. intros q Hq.
    specialize (M q Hq). specialize (H q Hq). cbn [fst snd] in M. pose proof (Rabs_fact (hval (hsv p) q - sdist H' q)). unfold bm in M. lra. }
  split; [exact N|]. split; [|split; [|split]].
  - intros Hv H mg q HI Hq. destruct (Forall2_In_r _ _ _ _ P6 HI) as (p & Hp & M). specialize (C2 Hv p q Hp Hq). specialize (M q Hq). cbn [fst snd] in M.
    pose proof (Rabs_fact (hval (hsv p) q - sdist H q)). unfold bm in M. lra.
  - intros q Hq Hin Hv. destruct (N Hv) as (H & mg & HI & A). specialize (A q Hq). specialize (Hin H mg HI). lra.
  - intros (H & mg & HI & A). apply C3. destruct (Forall2_In_r _ _ _ _ P6 HI) as (p & Hp & M). exists p. split; [exact Hp|]. intros q Hq. specialize (A q Hq). specialize (M q Hq). cbn [fst snd] in M.
    pose proof (Rabs_fact (hval (hsv p) q - sdist H q)). unfold bm in M. lra.
  - intros A. apply C4. intros p q Hp Hq. destruct (Forall2_In_l _ _ _ _ P6 Hp) as ((H & mg) & HI & M). specialize (A H mg q HI Hq). specialize (M q Hq). cbn [fst snd] in M.
    pose proof (Rabs_fact (hval (hsv p) q - sdist H q)). unfold bm in M. lra.
Qed.
Print Assumptions C156_camera_box_culling.

(** The camera (-1, 1, -1, 1, 1, 4) and three spheres of radius one half. *)
Example C156_hypotheses_met :
  cam_range (b32_opp f32_one) f32_one (b32_opp f32_one) f32_one f32_one f32_four /\
  sane f32_zero /\ sane f32_half /\ sane (b32_opp f32_two) /\
  (forall cfg : Cfg, let cull := fun p => (m <- frf_compute_matrix [b32_opp f32_one; f32_one; b32_opp f32_one; f32_one; f32_one; f32_four] ;; cl <- fcf_setup m ;; fc_test_sphere cl p) in
   cull [f32_zero; f32_zero; b32_opp f32_two; f32_half] = Ok V_FULL /\
   cull [f32_zero; f32_zero; b32_opp f32_one; f32_half] = Ok V_PARTIAL /\
   cull [f32_zero; f32_zero; f32_two; f32_half] = Ok V_NONE).
Proof.
  assert (E : B2FF 24 128 f32_four = F754_finite false 8388608 (-21)) by reflexivity.
  assert (V4 : val f32_four = 4). { unfold val. destruct f32_four as [s|s|s p0 H0|s m e H]; try discriminate E. injection E as -> -> ->. cbn. unfold F2R. cbn. lra. }
  assert (VO : val (b32_opp f32_one) = - 1) by (unfold val, b32_opp; rewrite B2R_Bopp; fold (val f32_one); rewrite val_one; lra).
  split.
  - unfold cam_range. rewrite VO, V4, val_one, n15, n8. split; [intros x Hx; cbn [In] in Hx; repeat destruct Hx as [<-|Hx]; try contradiction; reflexivity|].
    split; [lra|]. split; [lra|]. split; [|lra].
    intros x Hx. cbn [In] in Hx. repeat destruct Hx as [<-|Hx]; try contradiction; rewrite ?VO, ?val_one; [rewrite Rabs_left|rewrite Rabs_pos_eq|rewrite Rabs_left|rewrite Rabs_pos_eq]; lra.
  - split; [apply sane_zero|]. split; [apply sane_half|]. split.
    + split; [reflexivity|]. unfold val, b32_opp. rewrite B2R_Bopp. fold (val f32_two). rewrite val_two, Rabs_left by lra. replace (- - (2)) with (2 ^ 1) by ring. apply Rle_pow; [lra|lia].
    + intros cfg. repeat split; vm_compute; reflexivity.
Qed.
