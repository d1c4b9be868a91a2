(** Property C137: the projection matrices of a frustum in double precision. *)
From Coq Require Import ZArith Reals Lra Psatz Bool List.
From Flocq Require Import Core.Core IEEE754.BinarySingleNaN IEEE754.Binary IEEE754.Bits.
From Verif Require Import InstR InstF LF64 LVector LMatrix LVector2 Spec LSum PFloat LFloat PFloat2 LErr Spec10 LExt MFrustum PFrustum PFloat3 PFloat4.
Import ListNotations.
Local Open Scope R_scope.
Local Notation rnd := (round radix2 (FLT_exp (-1074) 53) (Znearest (fun x => negb (Z.even x)))).
Local Notation bp := (bpow radix2).

(** [x] is [r] up to one rounding. *)
Definition rel1 (x : f64) (r : R) : Prop := fin x /\ exists d, Rabs d <= uro /\ val x = r * (1 + d).
Lemma rel1_refl x : fin x -> rel1 x (val x).
Proof. intros F. split; [exact F|]. exists 0. rewrite Rabs_R0, uro_val. split; lra. Qed.
Lemma rel1_opp x r : rel1 x r -> rel1 (b64_opp x) (- r).
Proof.
  intros (F & d & Hd & E). split; [unfold fin, b64_opp in *; rewrite is_finite_Bopp; exact F|]. exists d. split; [exact Hd|].
  unfold val, b64_opp in *. rewrite B2R_Bopp, E. ring.
Qed.
Lemma rel1_plus i a b : okf i a -> okf i b -> (-1074 <= i + 1 < 1024)%Z -> rel1 (b64_plus mode_NE a b) (val a + val b).
Proof.
  intros A B Hi. destruct (okf_plus i (i + 1) a b A B eq_refl Hi) as ((F & _) & _). split; [exact F|].
  destruct A as (Fa & Ba), B as (Fb & Bb). destruct (plus_error a b) as (d & Hd & E). exists d. split; [exact Hd|].
  destruct (plus_fin a b Fa Fb) as (_ & ->); [|exact E].
  assert (P : Rabs (val a + val b) <= bp (i + 1)). { eapply Rle_trans; [apply Rabs_triang|]. rewrite bpow_plus. change (bp 1) with 2. lra. }
  eapply Rle_lt_trans; [apply (rnd_le _ _ (proj1 Hi) P)|]. apply bpow_lt. lia.
Qed.
Lemma okf_opp' i x : okf i x -> okf i (b64_opp x).
Proof. intros H. apply okf_opp. exact H. Qed.
Lemma rel1_minus i a b : okf i a -> okf i b -> (-1074 <= i + 1 < 1024)%Z -> rel1 (b64_minus mode_NE a b) (val a - val b).
Proof.
  intros A B Hi. destruct (okf_minus i (i + 1) a b A B eq_refl Hi) as ((F & _) & _). split; [exact F|].
  destruct (okf_opp i b B) as (_ & EO).
  destruct A as (Fa & Ba), B as (Fb & Bb). destruct (plus_error a (b64_opp b)) as (d & Hd & E). rewrite EO in E. exists d. split; [exact Hd|].
  destruct (minus_fin a b Fa Fb) as (_ & ->); [|exact E].
  assert (P : Rabs (val a - val b) <= bp (i + 1)). { unfold Rminus. eapply Rle_trans; [apply Rabs_triang|]. rewrite Rabs_Ropp, bpow_plus. change (bp 1) with 2. lra. }
  eapply Rle_lt_trans; [apply (rnd_le _ _ (proj1 Hi) P)|]. apply bpow_lt. lia.
Qed.
Lemma gen64 (x : f64) : generic_format radix2 (FLT_exp (-1074) 53) (val x).
Proof. unfold val. apply generic_format_B2R. Qed.
(** Doubling is exact. *)
Lemma gen_double (x : R) : generic_format radix2 (FLT_exp (-1074) 53) x -> generic_format radix2 (FLT_exp (-1074) 53) (2 * x).
Proof.
  intros G. apply FLT_format_generic in G; [|reflexivity]. destruct G as [f E1 E2 E3]. apply generic_format_FLT.
  apply (FLT_spec _ _ _ _ (Float radix2 (Fnum f) (Fexp f + 1))); cbn [Fnum Fexp].
  - rewrite E1. unfold F2R. cbn [Fnum Fexp]. rewrite bpow_plus. change (bp 1) with 2. ring.
  - exact E2.
  - lia.
Qed.
Lemma exact_double i x : okf i x -> (-1074 <= i + 1 < 1024)%Z ->
  (okf (i + 1) (b64_mult mode_NE f64_two x) /\ val (b64_mult mode_NE f64_two x) = 2 * val x) /\
  (okf (i + 1) (b64_mult mode_NE (b64_opp f64_two) x) /\ val (b64_mult mode_NE (b64_opp f64_two) x) = - 2 * val x).
Proof.
  intros (F & B) Hi.
  assert (G : forall s : f64, fin s -> (val s = 2 \/ val s = - 2) -> okf (i + 1) (b64_mult mode_NE s x) /\ val (b64_mult mode_NE s x) = val s * val x).
  { intros s Fs V. assert (R0 : rnd (val s * val x) = val s * val x).
    { apply round_generic; [apply valid_rnd_N|]. destruct V as [V|V]; rewrite V; [apply gen_double, gen64|].
      replace (- 2 * val x) with (- (2 * val x)) by ring. apply generic_format_opp, gen_double, gen64. }
    assert (B2 : Rabs (val s * val x) <= bp (i + 1)).
    { rewrite Rabs_mult, bpow_plus, Rmult_comm. change (bp 1) with 2. apply Rmult_le_compat; try apply Rabs_pos; [exact B|].
      destruct V as [V|V]; rewrite V; [rewrite Rabs_pos_eq|rewrite Rabs_left]; lra. }
    destruct (mult_fin s x Fs F) as (F' & E'). { rewrite R0. eapply Rle_lt_trans; [exact B2|]. apply bpow_lt. lia. }
    rewrite R0 in E'. split; [split; [exact F'|rewrite E'; exact B2]|exact E']. }
  assert (VO : val (b64_opp f64_two) = - 2) by (unfold val, b64_opp; rewrite B2R_Bopp; fold (val f64_two); rewrite val_two; lra).
  destruct (G f64_two eq_refl (or_introl val_two)) as (G1 & G2). destruct (G (b64_opp f64_two) eq_refl (or_intror VO)) as (G3 & G4).
  rewrite val_two in G2. rewrite VO in G4. tauto.
Qed.
(** A product in the normal range. *)
Lemma rel1_mult i j a b : okf i a -> okf j b -> (-1074 <= i + j < 1024)%Z -> bp (-1022) <= Rabs (val a * val b) ->
  rel1 (b64_mult mode_NE a b) (val a * val b).
Proof.
  intros A B Hk N. destruct (okf_mult i j _ a b A B eq_refl Hk) as ((F & _) & _). split; [exact F|].
  destruct (rnd_rel _ N) as (d & Hd & E). exists d. split; [exact Hd|]. destruct A as (Fa & Ba), B as (Fb & Bb).
  destruct (mult_fin a b Fa Fb) as (_ & ->); [|exact E].
  assert (P : Rabs (val a * val b) <= bp (i + j)) by (rewrite bpow_plus, Rabs_mult; apply Rmult_le_compat; try apply Rabs_pos; assumption).
  eapply Rle_lt_trans; [apply (rnd_le _ _ (proj1 Hk) P)|]. apply bpow_lt. lia.
Qed.

(** Accurate to four units in the 53rd bit. *)
Definition near4 (x : f64) (r : R) : Prop := fin x /\ Rabs (val x - r) <= 4 * / 2 ^ 53 * Rabs r + / 2 ^ 1075.
Lemma quot_real (q da db d e : R) : Rabs da <= uro -> Rabs db <= uro -> Rabs d <= uro -> Rabs e <= eta ->
  Rabs (q * ((1 + da) * / (1 + db)) * (1 + d) + e - q) <= 4 * uro * Rabs q + eta /\ Rabs (q * ((1 + da) * / (1 + db))) <= 2 * Rabs q.
Proof.
  intros Ha Hb Hd He. assert (U : 0 < uro <= / 1000) by (rewrite uro_val; lra).
  apply Rabs_le_inv in Ha, Hb, Hd.
  assert (P : 0 < 1 + db) by lra. set (w := / (1 + db)).
  assert (W : w * (1 + db) = 1) by (unfold w; field; lra).
  assert (Wp : 0 < w) by (apply Rinv_0_lt_compat; exact P).
  assert (W1 : w <= 1 + uro + 2 * (uro * uro)).
  { apply (Rmult_le_reg_r (1 + db)); [exact P|]. rewrite W. assert (0 <= uro * uro) by nra.
    assert ((1 + uro + 2 * (uro * uro)) * (1 - uro) <= (1 + uro + 2 * (uro * uro)) * (1 + db)) by (apply Rmult_le_compat_l; lra).
    assert ((1 + uro + 2 * (uro * uro)) * (1 - uro) = 1 + uro * uro * (1 - 2 * uro)) by ring. assert (0 <= uro * uro * (1 - 2 * uro)) by (apply Rmult_le_pos; lra). lra. }
  assert (W2 : 1 - uro <= w) by (apply (Rmult_le_reg_r (1 + db)); [exact P|]; rewrite W; nra).
  assert (F : Rabs ((1 + da) * w * (1 + d) - 1) <= 4 * uro).
  { assert (X1 : (1 - uro) * (1 - uro) <= (1 + da) * (1 + d) <= (1 + uro) * (1 + uro)) by (split; apply Rmult_le_compat; lra).
    set (z := (1 + da) * (1 + d)) in *. replace ((1 + da) * w * (1 + d)) with (z * w) by (unfold z; ring).
    assert (X2 : z * w <= ((1 + uro) * (1 + uro)) * (1 + uro + 2 * (uro * uro))) by (apply Rmult_le_compat; try lra; nra).
    assert (X3 : ((1 - uro) * (1 - uro)) * (1 - uro) <= z * w) by (apply Rmult_le_compat; try lra; nra).
    clear - X2 X3 U. set (u := uro) in *. clearbody u. assert (S : 0 <= u * u <= / 1000 * u) by nra. apply Rabs_le. split.
    - replace ((1 - u) * (1 - u) * (1 - u)) with (1 - 3 * u + 3 * (u * u) - u * (u * u)) in X3 by ring.
      assert (u * (u * u) <= u * u) by nra. lra.
    - replace ((1 + u) * (1 + u) * (1 + u + 2 * (u * u))) with (1 + 3 * u + 5 * (u * u) + 5 * (u * (u * u)) + 2 * (u * u * (u * u))) in X2 by ring.
      assert (u * (u * u) <= u * u) by nra. assert (u * u * (u * u) <= u * u) by nra. lra. }
  split.
  - replace (q * ((1 + da) * w) * (1 + d) + e - q) with (q * ((1 + da) * w * (1 + d) - 1) + e) by ring.
    eapply Rle_trans; [apply Rabs_triang|]. apply Rplus_le_compat; [|exact He]. rewrite Rabs_mult, Rmult_comm.
    apply Rmult_le_compat_r; [apply Rabs_pos|exact F].
  - rewrite Rabs_mult, Rmult_comm. apply Rmult_le_compat_r; [apply Rabs_pos|]. rewrite Rabs_pos_eq by nra. nra.
Qed.
(** A quotient of two numbers known up to one rounding each. *)
Lemma near4_div (a b : f64) (A B : R) (i j : Z) : rel1 a A -> rel1 b B -> Rabs A <= bp i -> bp j <= Rabs B -> (-1074 <= i - j + 1 < 1024)%Z ->
  near4 (b64_div mode_NE a b) (A / B).
Proof.
  intros (Fa & da & Ha & Ea) (Fb & db & Hb & Eb) HA HB Hi.
  assert (Bp : 0 < Rabs B) by (eapply Rlt_le_trans; [apply bpow_gt_0|exact HB]).
  assert (B0 : B <> 0) by (intros ->; rewrite Rabs_R0 in Bp; lra).
  assert (D1 : 0 < 1 + db) by (rewrite uro_val in Hb; apply Rabs_le_inv in Hb; lra).
  assert (V0 : val b <> 0) by (rewrite Eb; apply Rmult_integral_contrapositive_currified; lra).
  assert (Q : val a / val b = A / B * ((1 + da) * / (1 + db))) by (rewrite Ea, Eb; field; split; lra).
  destruct (mult_error (val a / val b) 1) as (d & e & Hd & He & E). rewrite !Rmult_1_r in E.
  destruct (quot_real (A / B) da db d e Ha Hb Hd He) as (K1 & K2). rewrite <- Q in K1, K2.
  destruct (div_fin a b Fa V0) as (F & EV).
  { apply (Rle_lt_trans _ (bp (i - j + 1))); [|apply bpow_lt; lia]. apply rnd_le; [lia|]. eapply Rle_trans; [exact K2|].
    rewrite bpow_plus, Rmult_comm. change (bp 1) with 2. apply Rmult_le_compat_r; [lra|].
    unfold Rdiv. rewrite Rabs_mult, Rabs_inv by exact B0. replace (i - j)%Z with (i + - j)%Z by lia. rewrite bpow_plus, bpow_opp.
    apply Rmult_le_compat; [apply Rabs_pos|apply Rlt_le, Rinv_0_lt_compat; exact Bp|exact HA|]. apply Rinv_le; [apply bpow_gt_0|exact HB]. }
  split; [exact F|]. rewrite EV, E, <- uro_2. exact K1.
Qed.

(** ** The matrices *)
(** Ranges in which nothing overflows and no denominator is near zero. *)
Definition frustum_range (l r b t n f : f64) : Prop :=
  (forall x, In x [l; r; b; t; n; f] -> fin x /\ Rabs (val x) <= bp 300) /\
  bp (-300) <= Rabs (val r - val l) /\ bp (-300) <= Rabs (val t - val b) /\ bp (-300) <= Rabs (val f - val n) /\
  bp (-300) <= Rabs (val n) /\ bp (-300) <= Rabs (val f).

Lemma persp64 (cfg : Cfg) (l r b t n f : f64) :
  let d := b64_div mode_NE in let p := b64_plus mode_NE in let s := b64_minus mode_NE in let x := b64_mult mode_NE in
  let z := f64_zero in
  fr_compute_matrix (ST := F64Scalar) [l; r; b; t; n; f] = Ok
   [d (x f64_two n) (s r l); z; z; z;  z; d (x f64_two n) (s t b); z; z;
    d (p r l) (s r l); d (p t b) (s t b); d (b64_opp (p f n)) (s f n); b64_opp f64_one;
    z; z; d (x (x (b64_opp f64_two) f) n) (s f n); z].
Proof.
  intros d p s x z. unfold fr_compute_matrix, mat_default, mat_identity, mat_fill, fr_compute_matrix_into, mat_put, mat_sq_put, fr_left, fr_right, fr_bottom, fr_top, fr_near, fr_far.
  destruct safe; reflexivity.
Qed.
Lemma ortho64 (cfg : Cfg) (l r b t n f : f64) :
  let d := b64_div mode_NE in let p := b64_plus mode_NE in let s := b64_minus mode_NE in
  let z := f64_zero in
  fr_compute_ortho_matrix (ST := F64Scalar) [l; r; b; t; n; f] = Ok
   [d f64_two (s r l); z; z; z;  z; d f64_two (s t b); z; z;  z; z; d (b64_opp f64_two) (s f n); z;
    d (b64_opp (p r l)) (s r l); d (b64_opp (p t b)) (s t b); d (b64_opp (p f n)) (s f n); f64_one].
Proof.
  intros d p s z. unfold fr_compute_ortho_matrix, mat_default, mat_identity, mat_fill, fr_compute_ortho_matrix_into, mat_put, mat_sq_put, fr_left, fr_right, fr_bottom, fr_top, fr_near, fr_far.
  destruct safe; reflexivity.
Qed.
Lemma near4_exact x (v : R) : fin x -> val x = v -> near4 x v.
Proof.
  intros F <-. split; [exact F|]. replace (val x - val x) with 0 by ring. rewrite Rabs_R0. pose proof (Rabs_pos (val x)).
  pose proof eta_pos as E. unfold eta in E. rewrite <- uro_2, uro_val. lra.
Qed.

(** The matrices of glFrustum and glOrtho, column by column. *)
Definition gl_frustum (l r b t n f : R) : list R :=
  [2 * n / (r - l); 0; 0; 0;  0; 2 * n / (t - b); 0; 0;
   (r + l) / (r - l); (t + b) / (t - b); - (f + n) / (f - n); -1;  0; 0; - (2 * f * n) / (f - n); 0].
Definition gl_ortho (l r b t n f : R) : list R :=
  [2 / (r - l); 0; 0; 0;  0; 2 / (t - b); 0; 0;  0; 0; - (2) / (f - n); 0;
   - (r + l) / (r - l); - (t + b) / (t - b); - (f + n) / (f - n); 1].

(** C137: every cell of the perspective and of the orthographic matrix computed
    in double differs from the exactly computed cell by at most four units in
    the 53rd bit, however close together the planes are. *)
Theorem C137_matrices_accurate :
  forall (cfg : Cfg) (lim : RLim) (l r b t n f : f64), frustum_range l r b t n f ->
  let ep := gl_frustum (val l) (val r) (val b) (val t) (val n) (val f) in
  let eo := gl_ortho (val l) (val r) (val b) (val t) (val n) (val f) in
  exists mp mo,
  fr_compute_matrix (ST := F64Scalar) [l; r; b; t; n; f] = Ok mp /\
  fr_compute_matrix (ST := RScalar) [val l; val r; val b; val t; val n; val f] = Ok ep /\
  fr_compute_ortho_matrix (ST := F64Scalar) [l; r; b; t; n; f] = Ok mo /\
  fr_compute_ortho_matrix (ST := RScalar) [val l; val r; val b; val t; val n; val f] = Ok eo /\
  Forall2 near4 mp ep /\ Forall2 near4 mo eo.
Proof.
  intros cfg lim l r b t n f (HI & D1 & D2 & D3 & D4 & D5) ep eo.
  assert (OK : forall x, In x [l; r; b; t; n; f] -> okf 300 x) by (intros x Hx; apply HI; exact Hx).
  assert (NE : forall x y : f64, bp (-300) <= Rabs (val x - val y) -> val y <> val x).
  { intros x y H E. rewrite E in H. replace (val x - val x) with 0 in H by ring. rewrite Rabs_R0 in H. pose proof (bpow_gt_0 radix2 (-300)). lra. }
  pose proof (OK l ltac:(cbn; tauto)) as Ol. pose proof (OK r ltac:(cbn; tauto)) as Or. pose proof (OK b ltac:(cbn; tauto)) as Ob.
  pose proof (OK t ltac:(cbn; tauto)) as Ot. pose proof (OK n ltac:(cbn; tauto)) as On. pose proof (OK f ltac:(cbn; tauto)) as Of.
  pose proof (rel1_minus 300 r l Or Ol ltac:(lia)) as S1. pose proof (rel1_minus 300 t b Ot Ob ltac:(lia)) as S2. pose proof (rel1_minus 300 f n Of On ltac:(lia)) as S3.
  pose proof (rel1_plus 300 r l Or Ol ltac:(lia)) as P1. pose proof (rel1_plus 300 t b Ot Ob ltac:(lia)) as P2. pose proof (rel1_plus 300 f n Of On ltac:(lia)) as P3.
  assert (BP : forall x y : f64, okf 300 x -> okf 300 y -> Rabs (val x + val y) <= bp 301).
  { intros x y (_ & X) (_ & Y). eapply Rle_trans; [apply Rabs_triang|]. change 301%Z with (300 + 1)%Z. rewrite bpow_plus. change (bp 1) with 2. lra. }
  destruct (exact_double 300 n On ltac:(lia)) as (((F2n & _) & E2n) & _).
  destruct (exact_double 300 f Of ltac:(lia)) as (_ & (O2f & E2f)).
  assert (R2n : rel1 (b64_mult mode_NE f64_two n) (2 * val n)) by (rewrite <- E2n; apply rel1_refl; exact F2n).
  assert (B2n : Rabs (2 * val n) <= bp 301).
  { rewrite Rabs_mult, (Rabs_pos_eq 2) by lra. change 301%Z with (1 + 300)%Z. rewrite bpow_plus. change (bp 1) with 2. destruct On as (_ & On). lra. }
  assert (RP : rel1 (b64_mult mode_NE (b64_mult mode_NE (b64_opp f64_two) f) n) (- (2) * val f * val n) /\ Rabs (- (2) * val f * val n) <= bp 601).
  { replace (- (2) * val f) with (-2 * val f) by lra. rewrite <- E2f. split.
    - apply (rel1_mult 301 300); [exact O2f|exact On|lia|]. rewrite E2f, !Rabs_mult, Rabs_left by lra.
      change (-1022)%Z with (-300 + (-300 + -422))%Z. rewrite !bpow_plus. pose proof (bpow_gt_0 radix2 (-300)) as G. pose proof (bpow_gt_0 radix2 (-422)) as G2.
      assert (G3 : bp (-422) <= 1) by (change 1 with (bp 0); apply bpow_le; lia).
      assert (G4 : bp (-300) * bp (-300) <= Rabs (val f) * Rabs (val n)) by (apply Rmult_le_compat; lra).
      assert (G5 : 0 < bp (-300) * bp (-300)) by (apply Rmult_lt_0_compat; exact G).
      replace (bp (-300) * (bp (-300) * bp (-422))) with (bp (-300) * bp (-300) * bp (-422)) by ring.
      assert (bp (-300) * bp (-300) * bp (-422) <= bp (-300) * bp (-300) * 1) by (apply Rmult_le_compat_l; lra). lra.
    - rewrite Rabs_mult. change 601%Z with (301 + 300)%Z. rewrite bpow_plus. apply Rmult_le_compat; try apply Rabs_pos; [apply O2f|apply On]. }
  destruct RP as (RP & BPP).
  assert (R2 : rel1 f64_two 2) by (rewrite <- val_two; apply rel1_refl; reflexivity).
  assert (B2 : Rabs 2 <= bp 301) by (rewrite Rabs_pos_eq by lra; change 2 with (bp 1); apply bpow_le; lia).
  assert (N0 : near4 f64_zero 0) by (apply near4_exact; reflexivity).
  assert (N1 : near4 f64_one 1) by (apply near4_exact; [reflexivity|apply val_one]).
  assert (NM : near4 (b64_opp f64_one) (-1)).
  { apply near4_exact; [reflexivity|]. unfold val, b64_opp. rewrite B2R_Bopp. fold (val f64_one). rewrite val_one. lra. }
  assert (EP : fr_compute_matrix (ST := RScalar) [val l; val r; val b; val t; val n; val f] = Ok ep).
  { etransitivity; [apply compute_matrix_eq; apply NE; assumption|]. unfold ep, gl_frustum. repeat (f_equal; try lra). }
  assert (EO : fr_compute_ortho_matrix (ST := RScalar) [val l; val r; val b; val t; val n; val f] = Ok eo).
  { etransitivity; [apply compute_ortho_eq; apply NE; assumption|]. unfold eo, gl_ortho. repeat (f_equal; try lra). }
  do 2 eexists. split; [apply persp64|]. split; [exact EP|].
  split; [apply ortho64|]. split; [exact EO|]. unfold ep, eo, gl_frustum, gl_ortho. replace (- (2 * val f * val n)) with (- (2) * val f * val n) by ring.
  split; repeat (apply Forall2_cons; [try assumption|]); try apply Forall2_nil;
    first [ eapply (near4_div _ _ _ _ 601 (-300)); [first [eassumption|apply rel1_opp; eassumption]|eassumption| |eassumption|lia]
          | idtac ].
  all: try (rewrite Rabs_Ropp); first [exact BPP|eapply Rle_trans; [first [exact B2n|exact B2|apply BP; assumption]|apply bpow_le; lia]].
Qed.
Print Assumptions C137_matrices_accurate.
Example C137_hypotheses_met : frustum_range (b64_opp f64_one) f64_one (b64_opp f64_one) f64_two f64_one f64_two.
Proof.
  assert (VO : val (b64_opp f64_one) = - 1) by (unfold val, b64_opp; rewrite B2R_Bopp; fold (val f64_one); rewrite val_one; lra).
  assert (L : bp (-300) <= 1) by (change 1 with (bp 0); apply bpow_le; lia).
  assert (H : 2 <= bp 300) by (change 2 with (bp 1); apply bpow_le; lia).
  unfold frustum_range. rewrite VO, val_one, val_two. split; [|repeat (split; [rewrite Rabs_pos_eq; lra|]); rewrite Rabs_pos_eq; lra].
  intros x Hx. cbn [In] in Hx. repeat destruct Hx as [<-|Hx]; try contradiction; (split; [reflexivity|]); rewrite ?VO, ?val_one, ?val_two;
    first [rewrite Rabs_pos_eq by lra; lra|rewrite Rabs_left by lra; lra].
Qed.
