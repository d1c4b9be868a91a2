(** Property C155: the projection matrices of a frustum in float precision. *)
From Coq Require Import ZArith Reals Lra Psatz Bool List.
From Flocq Require Import Core.Core IEEE754.BinarySingleNaN IEEE754.Binary IEEE754.Bits.
From Verif Require Import InstR InstF InstF32 LVector LMatrix LVector2 Spec LSum MFrustum PFrustum MFloat MViewF PF32 LF32 LExprF.
From Verif Require PFloat LFloat PFloat2 LErr PFrustumF LF32d PFilter PCullF.
Import ListNotations.
Local Open Scope R_scope.
Local Notation rnd := (round radix2 (FLT_exp (-149) 24) (Znearest (fun x => negb (Z.even x)))).
Local Notation bp := (bpow radix2).
Lemma uro_val : uro = / 16777216.
Proof. unfold uro. cbn. lra. Qed.
Lemma uro_2 : uro = / 2 ^ 24.
Proof. reflexivity. Qed.

(** [x] is [r] up to one rounding. *)
Definition rel1 (x : f32) (r : R) : Prop := fin x /\ exists d, Rabs d <= uro /\ val x = r * (1 + d).
Lemma rel1_refl x : fin x -> rel1 x (val x).
Proof. intros F. split; [exact F|]. exists 0. rewrite Rabs_R0, uro_val. split; lra. Qed.
Lemma rel1_opp x r : rel1 x r -> rel1 (b32_opp x) (- r).
Proof.
  intros (F & d & Hd & E). split; [unfold fin, b32_opp in *; rewrite is_finite_Bopp; exact F|]. exists d. split; [exact Hd|].
  unfold val, b32_opp in *. rewrite B2R_Bopp, E. ring.
Qed.
Lemma rel_ex (v x u : R) : 0 <= u -> Rabs (v - x) <= u * Rabs x -> exists d, Rabs d <= u /\ v = x * (1 + d).
Proof.
  intros U H. destruct (Req_dec x 0) as [->|N].
  - exists 0. rewrite Rabs_R0 in *. rewrite Rmult_0_r in H. split; [exact U|]. unfold Rminus in H. rewrite Ropp_0, Rplus_0_r in H.
    pose proof (Rabs_pos v). assert (Z : Rabs v = 0) by lra. destruct (Req_dec v 0) as [->|NV]; [ring|]. apply Rabs_pos_lt in NV. lra.
  - exists ((v - x) / x). split; [|field; exact N]. unfold Rdiv. rewrite Rabs_mult, Rabs_inv by exact N.
    pose proof (Rabs_pos_lt x N). apply (Rmult_le_reg_r (Rabs x)); [assumption|]. rewrite Rmult_assoc, Rinv_l by lra. lra.
Qed.
Lemma uro_nn : 0 <= uro. Proof. rewrite uro_val. lra. Qed.
Lemma rel1_plus i a b : okf32 i a -> okf32 i b -> (0 <= i + 1 < 128)%Z -> rel1 (b32_plus mode_NE a b) (val a + val b).
Proof. intros A B Hi. destruct (okf32_plus i a b A B Hi) as ((F & _) & E). split; [exact F|]. exact (rel_ex _ _ _ uro_nn E). Qed.
Lemma rel1_minus i a b : okf32 i a -> okf32 i b -> (0 <= i + 1 < 128)%Z -> rel1 (b32_minus mode_NE a b) (val a - val b).
Proof. intros A B Hi. destruct (okf32_minus i a b A B Hi) as ((F & _) & E). split; [exact F|]. exact (rel_ex _ _ _ uro_nn E). Qed.

(** Accurate to four units in the 24th bit. *)
Definition near4 (x : f32) (r : R) : Prop := fin x /\ Rabs (val x - r) <= 4 * / 2 ^ 24 * Rabs r + / 2 ^ 150.
Lemma quot_real (q da db d e : R) : Rabs da <= uro -> Rabs db <= uro -> Rabs d <= uro -> Rabs e <= eta ->
  Rabs (q * ((1 + da) * / (1 + db)) * (1 + d) + e - q) <= 4 * uro * Rabs q + eta /\ Rabs (q * ((1 + da) * / (1 + db))) <= 2 * Rabs q.
Proof.
  intros Ha Hb Hd He. assert (U : 0 < uro <= / 1000) by (rewrite uro_val; lra).
  apply Rabs_le_inv in Ha, Hb, Hd.
  assert (P : 0 < 1 + db) by lra. set (w := / (1 + db)).
  assert (W : w * (1 + db) = 1) by (unfold w; field; lra).
  assert (Wp : 0 < w) by (apply Rinv_0_lt_compat; exact P).
  assert (W1 : w <= 1 + uro + 2 * (uro * uro)).
  { apply (Rmult_le_reg_r (1 + db)); [exact P|]. rewrite W. assert (0 <= uro * uro) by nra.
    assert ((1 + uro + 2 * (uro * uro)) * (1 - uro) <= (1 + uro + 2 * (uro * uro)) * (1 + db)) by (apply Rmult_le_compat_l; lra).
    assert ((1 + uro + 2 * (uro * uro)) * (1 - uro) = 1 + uro * uro * (1 - 2 * uro)) by ring. assert (0 <= uro * uro * (1 - 2 * uro)) by (apply Rmult_le_pos; lra). lra. }
  assert (W2 : 1 - uro <= w) by (apply (Rmult_le_reg_r (1 + db)); [exact P|]; rewrite W; nra).
  assert (F : Rabs ((1 + da) * w * (1 + d) - 1) <= 4 * uro).
  { assert (X1 : (1 - uro) * (1 - uro) <= (1 + da) * (1 + d) <= (1 + uro) * (1 + uro)) by (split; apply Rmult_le_compat; lra).
    set (z := (1 + da) * (1 + d)) in *. replace ((1 + da) * w * (1 + d)) with (z * w) by (unfold z; ring).
    assert (X2 : z * w <= ((1 + uro) * (1 + uro)) * (1 + uro + 2 * (uro * uro))) by (apply Rmult_le_compat; try lra; nra).
    assert (X3 : ((1 - uro) * (1 - uro)) * (1 - uro) <= z * w) by (apply Rmult_le_compat; try lra; nra).
    clear - X2 X3 U. set (u := uro) in *. clearbody u. assert (S : 0 <= u * u <= / 1000 * u) by nra. apply Rabs_le. split.
    - replace ((1 - u) * (1 - u) * (1 - u)) with (1 - 3 * u + 3 * (u * u) - u * (u * u)) in X3 by ring.
      assert (u * (u * u) <= u * u) by nra. lra.
    - replace ((1 + u) * (1 + u) * (1 + u + 2 * (u * u))) with (1 + 3 * u + 5 * (u * u) + 5 * (u * (u * u)) + 2 * (u * u * (u * u))) in X2 by ring.
      assert (u * (u * u) <= u * u) by nra. assert (u * u * (u * u) <= u * u) by nra. lra. }
  split.
  - replace (q * ((1 + da) * w) * (1 + d) + e - q) with (q * ((1 + da) * w * (1 + d) - 1) + e) by ring.
    eapply Rle_trans; [apply Rabs_triang|]. apply Rplus_le_compat; [|exact He]. rewrite Rabs_mult, Rmult_comm.
    apply Rmult_le_compat_r; [apply Rabs_pos|exact F].
  - rewrite Rabs_mult, Rmult_comm. apply Rmult_le_compat_r; [apply Rabs_pos|]. rewrite Rabs_pos_eq by nra. nra.
Qed.
(** A quotient of two numbers known up to one rounding each. *)
Lemma near4_div (a b : f32) (A B : R) (i j : Z) : rel1 a A -> rel1 b B -> Rabs A <= bp i -> bp j <= Rabs B -> (-149 <= i - j + 1 < 128)%Z ->
  near4 (b32_div mode_NE a b) (A / B).
Proof.
  intros (Fa & da & Ha & Ea) (Fb & db & Hb & Eb) HA HB Hi.
  assert (Bp : 0 < Rabs B) by (eapply Rlt_le_trans; [apply bpow_gt_0|exact HB]).
  assert (B0 : B <> 0) by (intros ->; rewrite Rabs_R0 in Bp; lra).
  assert (D1 : 0 < 1 + db) by (rewrite uro_val in Hb; apply Rabs_le_inv in Hb; lra).
  assert (V0 : val b <> 0) by (rewrite Eb; apply Rmult_integral_contrapositive_currified; lra).
  assert (Q : val a / val b = A / B * ((1 + da) * / (1 + db))) by (rewrite Ea, Eb; field; split; lra).
  destruct (mult_error (val a / val b) 1) as (d & e & Hd & He & E). rewrite !Rmult_1_r in E.
  destruct (quot_real (A / B) da db d e Ha Hb Hd He) as (K1 & K2). rewrite <- Q in K1, K2.
  destruct (div_fin a b Fa V0) as (F & EV).
  { apply (Rle_lt_trans _ (bp (i - j + 1))); [|apply bpow_lt; lia]. apply rnd_le; [lia|]. eapply Rle_trans; [exact K2|].
    rewrite bpow_plus, Rmult_comm. change (bp 1) with 2. apply Rmult_le_compat_r; [lra|].
    unfold Rdiv. rewrite Rabs_mult, Rabs_inv by exact B0. replace (i - j)%Z with (i + - j)%Z by lia. rewrite bpow_plus, bpow_opp.
    apply Rmult_le_compat; [apply Rabs_pos|apply Rlt_le, Rinv_0_lt_compat; exact Bp|exact HA|]. apply Rinv_le; [apply bpow_gt_0|exact HB]. }
  split; [exact F|]. rewrite EV, E, <- uro_2. exact K1.
Qed.


(** A double quotient of a double by a widened float, rounded to float. *)
Lemma quot_wide_real (q da db d w : R) : Rabs da <= PFloat.uro -> Rabs db <= uro -> Rabs d <= PFloat.uro ->
  let v := q * ((1 + da) * / (1 + db)) * (1 + d) in
  Rabs (w - v) <= uro * Rabs v + eta -> Rabs (w - q) <= 4 * uro * Rabs q + eta /\ Rabs v <= 2 * Rabs q.
Proof.
  intros Ha Hb Hd v Hw. assert (U : uro = / 16777216) by exact uro_val. assert (U6 : PFloat.uro <= / 100000000000) by (rewrite PFloat2.uro_val; lra).
  apply Rabs_le_inv in Ha, Hb, Hd. set (k := (1 + da) * / (1 + db) * (1 + d)).
  assert (P : 0 < 1 + db) by lra. set (z := / (1 + db)) in *.
  assert (W : z * (1 + db) = 1) by (unfold z; field; lra).
  assert (W1 : z <= 1 + 101 / 100 * uro) by (apply (Rmult_le_reg_r (1 + db)); [exact P|]; rewrite W, U in *; nra).
  assert (W2 : 1 - uro <= z) by (apply (Rmult_le_reg_r (1 + db)); [exact P|]; rewrite W, U in *; nra).
  assert (X1 : 1 - / 10000000000 <= (1 + da) * (1 + d) <= 1 + / 10000000000) by (split; nra).
  assert (K : Rabs (k - 1) <= 15 / 10 * uro).
  { unfold k. replace ((1 + da) * z * (1 + d)) with ((1 + da) * (1 + d) * z) by ring. set (y := (1 + da) * (1 + d)) in *.
    assert (y * z <= (1 + / 10000000000) * (1 + 101 / 100 * uro)) by (apply Rmult_le_compat; lra).
    assert ((1 - / 10000000000) * (1 - uro) <= y * z) by (apply Rmult_le_compat; lra).
    apply Rabs_le. rewrite U in *. lra. }
  assert (V : v = q * k) by (unfold v, k; fold z; ring). rewrite V in *. clear V v.
  assert (K2 : Rabs k <= 2) by (apply Rabs_le_inv in K; apply Rabs_le; rewrite U in *; lra).
  pose proof (Rabs_pos q) as Q0. rewrite Rabs_mult in *.
  assert (B : Rabs q * Rabs k <= Rabs q * (1 + 15 / 10 * uro)) by (apply Rmult_le_compat_l; [exact Q0|]; apply Rabs_le_inv in K; apply Rabs_le; rewrite U in *; lra).
  assert (C : Rabs (q * k - q) <= Rabs q * (15 / 10 * uro)) by (replace (q * k - q) with (q * (k - 1)) by ring; rewrite Rabs_mult; apply Rmult_le_compat_l; assumption).
  split.
  - replace (w - q) with ((w - q * k) + (q * k - q)) by ring. eapply Rle_trans; [apply Rabs_triang|]. rewrite U in *. lra.
  - rewrite (Rmult_comm 2). apply Rmult_le_compat_l; assumption.
Qed.
Lemma near4_div_wide (a : f64) (b : f32) (A B : R) (i j : Z) : PFrustumF.rel1 a A -> rel1 b B -> bp (-200) <= Rabs A <= bp i -> bp j <= Rabs B <= bp 100 ->
  (-140 <= i - j + 1 < 128)%Z ->
  near4 (f32_of_f64 (b64_div mode_NE a (f64_of_f32 b))) (A / B).
Proof.
  intros (Fa & da & Ha & Ea) (Fb & db & Hb & Eb) (LA & HA) (HB & UB) Hi.
  destruct (LF32d.widen b Fb) as (W1 & W2 & _). change (B2R 53 1024 (f64_of_f32 b)) with (PFloat.val (f64_of_f32 b)) in W2. change (B2R 24 128 b) with (val b) in W2.
  assert (Bp : 0 < Rabs B) by (eapply Rlt_le_trans; [apply bpow_gt_0|exact HB]).
  assert (B0 : B <> 0) by (intros ->; rewrite Rabs_R0 in Bp; lra).
  assert (D1 : 0 < 1 + db /\ Rabs (1 + db) <= 2) by (rewrite uro_val in Hb; apply Rabs_le_inv in Hb; split; [lra|apply Rabs_le; lra]).
  assert (D2 : / 2 <= Rabs (1 + da)) by (rewrite PFloat2.uro_val in Ha; apply Rabs_le_inv in Ha; rewrite Rabs_pos_eq; lra).
  assert (V0 : PFloat.val (f64_of_f32 b) <> 0) by (rewrite W2, Eb; apply Rmult_integral_contrapositive_currified; lra).
  assert (Q : PFloat.val a / PFloat.val (f64_of_f32 b) = A / B * ((1 + da) * / (1 + db))) by (rewrite W2, Ea, Eb; field; split; lra).
  assert (NRM : bp (-1022) <= Rabs (PFloat.val a / PFloat.val (f64_of_f32 b))).
  { unfold Rdiv. rewrite Rabs_mult, Rabs_inv by exact V0. apply (Rle_trans _ (bp (-201) * bp (-101))).
    - rewrite <- bpow_plus. apply bpow_le. lia.
    - apply Rmult_le_compat; try apply bpow_ge_0.
      + rewrite Ea, Rabs_mult. change (-201)%Z with (-200 + -1)%Z. rewrite bpow_plus. change (bp (-1)) with (/ 2). apply Rmult_le_compat; [apply bpow_ge_0|lra|assumption|assumption].
      + change (-101)%Z with (- (101))%Z. rewrite bpow_opp. rewrite W2. apply Rinv_le; [rewrite Eb, Rabs_mult; apply Rmult_lt_0_compat; [exact Bp|apply Rabs_pos_lt; lra]|].
        rewrite Eb, Rabs_mult. change 101%Z with (100 + 1)%Z. rewrite bpow_plus. change (bp 1) with 2. apply Rmult_le_compat; try apply Rabs_pos; tauto. }
  destruct (LFloat.rnd_rel _ NRM) as (d & Hd & E).
  assert (Kq : Rabs (A / B) <= bp (i - j)).
  { unfold Rdiv. rewrite Rabs_mult, Rabs_inv by exact B0. replace (i - j)%Z with (i + - j)%Z by lia. rewrite bpow_plus, bpow_opp.
    apply Rmult_le_compat; [apply Rabs_pos|apply Rlt_le, Rinv_0_lt_compat; exact Bp|exact HA|]. apply Rinv_le; [apply bpow_gt_0|exact HB]. }
  assert (K2 : Rabs (A / B * ((1 + da) * / (1 + db)) * (1 + d)) <= bp (i - j + 1)).
  { destruct (quot_wide_real (A / B) da db d (A / B * ((1 + da) * / (1 + db)) * (1 + d)) Ha Hb Hd) as (_ & K2).
    - replace (_ - _) with 0 by ring. rewrite Rabs_R0. pose proof eta_pos. pose proof uro_nn. pose proof (Rabs_pos (A / B * ((1 + da) * / (1 + db)) * (1 + d))).
      assert (0 <= uro * Rabs (A / B * ((1 + da) * / (1 + db)) * (1 + d))) by (apply Rmult_le_pos; assumption). lra.
    - eapply Rle_trans; [exact K2|]. rewrite bpow_plus, Rmult_comm. change (bp 1) with 2. apply Rmult_le_compat_r; lra. }
  rewrite <- Q in K2. rewrite <- E in K2.
  destruct (LFloat.div_fin a _ Fa V0) as (F & EV).
  { eapply Rle_lt_trans; [exact K2|]. apply bpow_lt. lia. }
  rewrite <- EV in K2. destruct (PFilter.narrow_fin _ _ F K2 ltac:(lia)) as ((F1 & _) & N).
  split; [exact F1|]. rewrite <- uro_2. rewrite EV, E, Q in N.
  exact (proj1 (quot_wide_real (A / B) da db d _ Ha Hb Hd N)).
Qed.

(** ** The matrices *)
(** Ranges in which nothing overflows and no denominator is near zero. *)
Definition frustum_range (l r b t n f : f32) : Prop :=
  (forall x, In x [l; r; b; t; n; f] -> fin x /\ Rabs (val x) <= bp 40) /\
  bp (-40) <= Rabs (val r - val l) /\ bp (-40) <= Rabs (val t - val b) /\ bp (-40) <= Rabs (val f - val n) /\
  bp (-40) <= Rabs (val n) /\ bp (-40) <= Rabs (val f).

Lemma persp32 (cfg : Cfg) (l r b t n f : f32) :
  let w := fun a b => f32_of_f64 (b64_div mode_NE a (f64_of_f32 b)) in
  let d := b32_div mode_NE in let p := b32_plus mode_NE in let s := b32_minus mode_NE in let x := b64_mult mode_NE in
  let z := f32_zero in
  frf_compute_matrix [l; r; b; t; n; f] = Ok
   [w (x f64_two (f64_of_f32 n)) (s r l); z; z; z;  z; w (x f64_two (f64_of_f32 n)) (s t b); z; z;
    d (p r l) (s r l); d (p t b) (s t b); d (b32_opp (p f n)) (s f n); b32_opp f32_one;
    z; z; w (x (x (b64_opp f64_two) (f64_of_f32 f)) (f64_of_f32 n)) (s f n); z].
Proof.
  intros w d p s x z. unfold frf_compute_matrix, mat_default, mat_identity, mat_fill, frf_compute_matrix_into, mat_put, mat_sq_put, fr_left, fr_right, fr_bottom, fr_top, fr_near, fr_far.
  destruct safe; reflexivity.
Qed.
Lemma ortho32 (cfg : Cfg) (l r b t n f : f32) :
  let w := fun a b => f32_of_f64 (b64_div mode_NE a (f64_of_f32 b)) in
  let d := b32_div mode_NE in let p := b32_plus mode_NE in let s := b32_minus mode_NE in
  let z := f32_zero in
  frf_compute_ortho_matrix [l; r; b; t; n; f] = Ok
   [w f64_two (s r l); z; z; z;  z; w f64_two (s t b); z; z;  z; z; w (b64_opp f64_two) (s f n); z;
    d (b32_opp (p r l)) (s r l); d (b32_opp (p t b)) (s t b); d (b32_opp (p f n)) (s f n); f32_one].
Proof.
  intros w d p s z. unfold frf_compute_ortho_matrix, mat_default, mat_identity, mat_fill, frf_compute_ortho_matrix_into, mat_put, mat_sq_put, fr_left, fr_right, fr_bottom, fr_top, fr_near, fr_far.
  destruct safe; reflexivity.
Qed.
Lemma near4_exact x (v : R) : fin x -> val x = v -> near4 x v.
Proof.
  intros F <-. split; [exact F|]. replace (val x - val x) with 0 by ring. rewrite Rabs_R0. pose proof (Rabs_pos (val x)).
  pose proof eta_pos as E. unfold eta in E. rewrite <- uro_2, uro_val. lra.
Qed.

(** C155: every cell of the perspective and of the orthographic matrix computed
    by Frustum< float > (whose numerators and quotients are partly in double)
    differs from the exactly computed cell by at most four units in the 24th
    bit, however close together the planes are. *)
Theorem C155_matrices_accurate :
  forall (cfg : Cfg) (lim : RLim) (l r b t n f : f32), frustum_range l r b t n f ->
  let ep := PFrustumF.gl_frustum (val l) (val r) (val b) (val t) (val n) (val f) in
  let eo := PFrustumF.gl_ortho (val l) (val r) (val b) (val t) (val n) (val f) in
  exists mp mo,
  frf_compute_matrix [l; r; b; t; n; f] = Ok mp /\
  fr_compute_matrix (ST := RScalar) [val l; val r; val b; val t; val n; val f] = Ok ep /\
  frf_compute_ortho_matrix [l; r; b; t; n; f] = Ok mo /\
  fr_compute_ortho_matrix (ST := RScalar) [val l; val r; val b; val t; val n; val f] = Ok eo /\
  Forall2 near4 mp ep /\ Forall2 near4 mo eo.
Proof.
  intros cfg lim l r b t n f (HI & D1 & D2 & D3 & D4 & D5) ep eo.
  assert (OK : forall x, In x [l; r; b; t; n; f] -> okf32 40 x) by (intros x Hx; apply HI; exact Hx).
  assert (NE : forall x y : f32, bp (-40) <= Rabs (val x - val y) -> val y <> val x).
  { intros x y H E. rewrite E in H. replace (val x - val x) with 0 in H by ring. rewrite Rabs_R0 in H. pose proof (bpow_gt_0 radix2 (-40)). lra. }
  pose proof (OK l ltac:(cbn; tauto)) as Ol. pose proof (OK r ltac:(cbn; tauto)) as Or. pose proof (OK b ltac:(cbn; tauto)) as Ob.
  pose proof (OK t ltac:(cbn; tauto)) as Ot. pose proof (OK n ltac:(cbn; tauto)) as On. pose proof (OK f ltac:(cbn; tauto)) as Of.
  pose proof (rel1_minus 40 r l Or Ol ltac:(lia)) as S1. pose proof (rel1_minus 40 t b Ot Ob ltac:(lia)) as S2. pose proof (rel1_minus 40 f n Of On ltac:(lia)) as S3.
  pose proof (rel1_plus 40 r l Or Ol ltac:(lia)) as P1. pose proof (rel1_plus 40 t b Ot Ob ltac:(lia)) as P2. pose proof (rel1_plus 40 f n Of On ltac:(lia)) as P3.
  assert (BP : forall x y : f32, okf32 40 x -> okf32 40 y -> Rabs (val x + val y) <= bp 41).
  { intros x y (_ & X) (_ & Y). eapply Rle_trans; [apply Rabs_triang|]. change 41%Z with (40 + 1)%Z. rewrite bpow_plus. change (bp 1) with 2. lra. }
  assert (BM : forall x y : f32, okf32 40 x -> okf32 40 y -> Rabs (val x - val y) <= bp 100).
  { intros x y (_ & X) (_ & Y). apply (Rle_trans _ (bp 41)); [|apply bpow_le; lia]. unfold Rminus. eapply Rle_trans; [apply Rabs_triang|]. rewrite Rabs_Ropp. change 41%Z with (40 + 1)%Z. rewrite bpow_plus. change (bp 1) with 2. lra. }
  destruct (PCullF.widen_okf _ _ On) as (Wn & Vn). destruct (PCullF.widen_okf _ _ Of) as (Wf & Vf).
  destruct (PFrustumF.exact_double 40 _ Wn ltac:(lia)) as (((F2n & _) & E2n) & _).
  destruct (PFrustumF.exact_double 40 _ Wf ltac:(lia)) as (_ & (O2f & E2f)).
  rewrite Vn in E2n. rewrite Vf in E2f.
  assert (R2n : PFrustumF.rel1 (b64_mult mode_NE f64_two (f64_of_f32 n)) (2 * val n)) by (rewrite <- E2n; apply PFrustumF.rel1_refl; exact F2n).
  assert (Mm : forall p q, (p <= q)%Z -> bp p <= bp q) by (intros; apply bpow_le; assumption).
  assert (B2n : bp (-200) <= Rabs (2 * val n) <= bp 81).
  { rewrite Rabs_mult, (Rabs_pos_eq 2) by lra. split.
    - pose proof (Mm (-200) (-40) ltac:(lia))%Z. pose proof (bpow_gt_0 radix2 (-40)). lra.
    - apply (Rle_trans _ (bp 41)); [|apply Mm; lia]. change 41%Z with (1 + 40)%Z. rewrite bpow_plus. change (bp 1) with 2. destruct On as (_ & On). apply Rmult_le_compat_l; [lra|exact On]. }
  assert (RP : PFrustumF.rel1 (b64_mult mode_NE (b64_mult mode_NE (b64_opp f64_two) (f64_of_f32 f)) (f64_of_f32 n)) (- (2) * val f * val n) /\ bp (-200) <= Rabs (- (2) * val f * val n) <= bp 81).
  { assert (LO : bp (-80) <= Rabs (- (2) * val f * val n)).
    { rewrite !Rabs_mult, Rabs_left by lra. change (-80)%Z with (-40 + -40)%Z. rewrite bpow_plus. pose proof (bpow_gt_0 radix2 (-40)) as G.
      assert (G4 : bp (-40) * bp (-40) <= Rabs (val f) * Rabs (val n)) by (apply Rmult_le_compat; lra).
      assert (G5 : 0 < bp (-40) * bp (-40)) by (apply Rmult_lt_0_compat; exact G). lra. }
    split; [|split; [eapply Rle_trans; [|exact LO]; apply Mm; lia|]].
    - replace (- (2) * val f) with (-2 * val f) by lra. replace (- (2) * val f) with (-2 * val f) in LO by lra. rewrite <- E2f, <- Vn in *.
      apply (PFrustumF.rel1_mult 41 40); [exact O2f|exact Wn|lia|]. eapply Rle_trans; [|exact LO]. apply Mm. lia.
    - rewrite Rabs_mult. change 81%Z with (41 + 40)%Z. rewrite bpow_plus. replace (- (2) * val f) with (-2 * val f) by lra. rewrite <- E2f.
      apply Rmult_le_compat; try apply Rabs_pos; [apply O2f|apply On]. }
  destruct RP as (RP & BPP).
  assert (R2 : PFrustumF.rel1 f64_two 2) by (rewrite <- LFloat.val_two; apply PFrustumF.rel1_refl; reflexivity).
  assert (B2 : bp (-200) <= Rabs 2 <= bp 81) by (rewrite Rabs_pos_eq by lra; change 2 with (bp 1); split; apply bpow_le; lia).
  assert (B2' : bp (-200) <= Rabs (- (2)) <= bp 81) by (rewrite Rabs_Ropp; exact B2).
  assert (N0 : near4 f32_zero 0) by (apply near4_exact; reflexivity).
  assert (N1 : near4 f32_one 1) by (apply near4_exact; [reflexivity|apply val_one]).
  assert (NM : near4 (b32_opp f32_one) (-1)).
  { apply near4_exact; [reflexivity|]. unfold val, b32_opp. rewrite B2R_Bopp. fold (val f32_one). rewrite val_one. lra. }
  assert (EP : fr_compute_matrix (ST := RScalar) [val l; val r; val b; val t; val n; val f] = Ok ep).
  { etransitivity; [apply compute_matrix_eq; apply NE; assumption|]. unfold ep, PFrustumF.gl_frustum. repeat (f_equal; try lra). }
  assert (EO : fr_compute_ortho_matrix (ST := RScalar) [val l; val r; val b; val t; val n; val f] = Ok eo).
  { etransitivity; [apply compute_ortho_eq; apply NE; assumption|]. unfold eo, PFrustumF.gl_ortho. repeat (f_equal; try lra). }
  do 2 eexists. split; [apply persp32|]. split; [exact EP|].
  split; [apply ortho32|]. split; [exact EO|]. unfold ep, eo, PFrustumF.gl_frustum, PFrustumF.gl_ortho. replace (- (2 * val f * val n)) with (- (2) * val f * val n) by ring.
  split; repeat (apply Forall2_cons; [try assumption|]); try apply Forall2_nil;
    first [ eapply (near4_div_wide _ _ _ _ 81 (-40)); [first [eassumption|apply PFrustumF.rel1_opp; eassumption]|eassumption|assumption|split; [assumption|apply BM; assumption]|lia]
          | eapply (near4_div _ _ _ _ 81 (-40)); [first [eassumption|apply rel1_opp; eassumption]|eassumption| |eassumption|lia]
          | idtac ].
  all: try (rewrite Rabs_Ropp); (eapply Rle_trans; [apply BP; assumption|apply bpow_le; lia]).
Qed.
Print Assumptions C155_matrices_accurate.
Example C155_hypotheses_met : frustum_range (b32_opp f32_one) f32_one (b32_opp f32_one) f32_two f32_one f32_two.
Proof.
  assert (VO : val (b32_opp f32_one) = - 1) by (unfold val, b32_opp; rewrite B2R_Bopp; fold (val f32_one); rewrite val_one; lra).
  assert (L : bp (-40) <= 1) by (change 1 with (bp 0); apply bpow_le; lia).
  assert (H : 2 <= bp 40) by (change 2 with (bp 1); apply bpow_le; lia).
  pose proof val_two as V2.
  unfold frustum_range. rewrite VO, val_one, V2. split; [|repeat (split; [rewrite Rabs_pos_eq; lra|]); rewrite Rabs_pos_eq; lra].
  intros x Hx. cbn [In] in Hx. repeat destruct Hx as [<-|Hx]; try contradiction; (split; [reflexivity|]); rewrite ?VO, ?val_one, ?V2;
    first [rewrite Rabs_pos_eq by lra; lra|rewrite Rabs_left by lra; lra].
Qed.
