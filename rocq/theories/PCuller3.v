(** Property C125: culling decisions taken in double precision. *)
From Coq Require Import ZArith Reals Lra Psatz List.
From Flocq Require Import Core.Core IEEE754.BinarySingleNaN IEEE754.Binary IEEE754.Bits.
From Verif Require Import InstF MFrustum Spec4 PCuller PFloat LFloat PFloat2 LErr.
Import ListNotations.
Local Open Scope R_scope.
Local Existing Instance F64Scalar.
Local Notation bp := (bpow radix2).

(** The half-space n . p + d >= 0 that four doubles stand for, and the point
    that three doubles stand for. *)
Definition dplane : Type := (f64 * f64 * f64 * f64)%type.
Definition arr (p : dplane) : list f64 := let '(a, b, c, d) := p in [a; b; c; d].
Definition hsv (p : dplane) : hs := let '(a, b, c, d) := p in ((val a, val b, val c), val d).
(** All four numbers are finite and at most 2^400. *)
Definition sane (x : f64) : Prop := fin x /\ Rabs (val x) <= 2 ^ 400.
Definition sane4 (p : dplane) : Prop := let '(a, b, c, d) := p in sane a /\ sane b /\ sane c /\ sane d.
(** |nx x| + |ny y| + |nz z| + |d|: the size of the terms of n . p + d. *)
Definition termsR (h : hs) (p : V3) : R :=
  let '((a, b, c), d) := h in let '(x, y, z) := p in Rabs (a * x) + Rabs (b * y) + Rabs (c * z) + Rabs d.
(** The rounding margin of the sphere test. *)
Definition margin (h : hs) (p : V3) : R := 5 / 2 ^ 53 * termsR h p + 4 / 2 ^ 1075.

Lemma E400 : 2 ^ 400 = bp 400.
Proof. exact (eq_sym (bpow_pow 400)). Qed.
Lemma sane_okf x : sane x -> okf 400 x.
Proof. intros (F & B). split; [exact F|]. rewrite <- E400. exact B. Qed.

Ltac absfacts := repeat match goal with
  | |- context [Rabs ?x] => lazymatch goal with H : - Rabs x <= x <= Rabs x |- _ => fail | _ => pose proof (Rabs_fact x) end
  | _ : context [Rabs ?x] |- _ => lazymatch goal with H : - Rabs x <= x <= Rabs x |- _ => fail | _ => pose proof (Rabs_fact x) end
  end.
Definition dist64 (p : dplane) (x y z : f64) : f64 :=
  let '(a, b, c, d) := p in
  b64_plus mode_NE (b64_plus mode_NE (b64_plus mode_NE (b64_mult mode_NE a x) (b64_mult mode_NE b y)) (b64_mult mode_NE c z)) d.
Lemma abs_tri_err (x y e : R) : Rabs (x - y) <= e -> Rabs x <= Rabs y + e.
Proof. intros H. replace x with (y + (x - y)) by ring. eapply Rle_trans; [apply Rabs_triang|]. lra. Qed.
Lemma real_dist X1 X2 X3 D M1 M2 M3 S1 S2 S3 e : 0 < e ->
  Rabs (M1 - X1) <= uro * Rabs X1 + e -> Rabs (M2 - X2) <= uro * Rabs X2 + e -> Rabs (M3 - X3) <= uro * Rabs X3 + e ->
  Rabs (S1 - (M1 + M2)) <= uro * Rabs (M1 + M2) -> Rabs (S2 - (S1 + M3)) <= uro * Rabs (S1 + M3) -> Rabs (S3 - (S2 + D)) <= uro * Rabs (S2 + D) ->
  Rabs (S3 - (X1 + X2 + X3 + D)) <= 5 * uro * (Rabs X1 + Rabs X2 + Rabs X3 + Rabs D) + 4 * e.
Proof.
  rewrite uro_val. intros EP R1 R2 R3 R4 R5 R6.
  apply abs_tri_err in R1 as A1. apply abs_tri_err in R2 as A2. apply abs_tri_err in R3 as A3.
  pose proof (Rabs_triang M1 M2). apply abs_tri_err in R4 as A4. pose proof (Rabs_triang S1 M3). apply abs_tri_err in R5 as A5. pose proof (Rabs_triang S2 D).
  pose proof (Rabs_pos X1). pose proof (Rabs_pos X2). pose proof (Rabs_pos X3). pose proof (Rabs_pos D).
  apply Rabs_le_inv in R1, R2, R3, R4, R5, R6. apply Rabs_le. split; lra.
Qed.
Lemma dist_err p x y z : sane4 p -> sane x -> sane y -> sane z ->
  fin (dist64 p x y z) /\ Rabs (val (dist64 p x y z) - hval (hsv p) (val x, val y, val z)) <= margin (hsv p) (val x, val y, val z).
Proof.
  destruct p as [[[a b] c] d]. intros (Ha & Hb & Hc & Hd) Hx Hy Hz. apply sane_okf in Ha, Hb, Hc, Hd, Hx, Hy, Hz.
  cbn [dist64 hsv]. unfold margin, termsR, hval. cbn [fst snd dot3].
  destruct (okf_mult 400 400 800 a x Ha Hx eq_refl ltac:(lia)) as (O1 & R1). set (m1 := b64_mult mode_NE a x) in *.
  destruct (okf_mult 400 400 800 b y Hb Hy eq_refl ltac:(lia)) as (O2 & R2). set (m2 := b64_mult mode_NE b y) in *.
  destruct (okf_mult 400 400 800 c z Hc Hz eq_refl ltac:(lia)) as (O3 & R3). set (m3 := b64_mult mode_NE c z) in *.
  destruct (okf_plus 800 801 m1 m2 O1 O2 eq_refl ltac:(lia)) as (O4 & R4). set (s1 := b64_plus mode_NE m1 m2) in *.
  destruct (okf_plus 801 802 s1 m3 O4 (okf_le 800 801 _ O3 ltac:(lia)) eq_refl ltac:(lia)) as (O5 & R5). set (s2 := b64_plus mode_NE s1 m3) in *.
  destruct (okf_plus 802 803 s2 d O5 (okf_le 400 802 _ Hd ltac:(lia)) eq_refl ltac:(lia)) as (O6 & R6). set (s3 := b64_plus mode_NE s2 d) in *.
  split; [apply O6|]. pose proof uro_val as UV. pose proof eta_pos as EP. change (/ 2 ^ 1075) with eta. unfold Rdiv. change (/ 2 ^ 1075) with eta. change (/ 2 ^ 53) with uro.
  exact (real_dist _ _ _ _ _ _ _ _ _ _ _ EP R1 R2 R3 R4 R5 R6).
Qed.

Lemma test_sphere_64 cl (P : list dplane) x y z r : fc_planes cl = map arr P ->
  fc_test_sphere cl [x; y; z; r] =
  Ok (if existsb (fun p => Bleb (dist64 p x y z) (b64_opp r)) P then V_NONE
      else if existsb (fun p => Bltb (dist64 p x y z) r) P then V_PARTIAL else V_FULL).
Proof.
  intros E. unfold fc_test_sphere. rewrite E. generalize V_FULL as vis. clear E.
  assert (ST : forall p vis, fc_sphere_step (arr p) [x; y; z; r] vis =
    Ok (if Bleb (dist64 p x y z) (b64_opp r) then inr V_NONE else if Bltb (dist64 p x y z) r then inl V_PARTIAL else inl vis)).
  { intros [[[a b] c] d] vis. unfold fc_sphere_step. cbn [arr rd nth_error bind].
    cbn [sadd smul sopp sleb sltb F64Scalar]. cbn [dist64]. destruct (Bleb _ _); [reflexivity|]. destruct (Bltb _ _); reflexivity. }
  induction P as [|p P IH]; intros vis; cbn [map fc_steps existsb]; [reflexivity|].
  rewrite ST. cbn [bind]. destruct (Bleb (dist64 p x y z) (b64_opp r)); [reflexivity|].
  destruct (Bltb (dist64 p x y z) r); cbn [orb].
  - rewrite IH. destruct (existsb (fun p0 => Bleb _ _) P); [reflexivity|]. destruct (existsb _ P); reflexivity.
  - apply IH.
Qed.

(** C125: the answer of test_sphere is the exact one for planes whose distance
    to the sphere is larger than the rounding margin, for every finite set of
    planes and every sphere. *)
Theorem C125_sphere_culling_in_double :
  forall (cl : culler) (P : list dplane) (x y z r : f64),
  fc_planes cl = map arr P -> (forall p, In p P -> sane4 p) -> sane x -> sane y -> sane z -> sane r ->
  let c := (val x, val y, val z) in
  exists v, fc_test_sphere cl [x; y; z; r] = Ok v /\
  (v = V_NONE -> exists p, In p P /\ hval (hsv p) c <= - val r + margin (hsv p) c) /\
  (v = V_FULL -> forall p, In p P -> val r - margin (hsv p) c <= hval (hsv p) c) /\
  ((exists p, In p P /\ hval (hsv p) c <= - val r - margin (hsv p) c) -> v = V_NONE) /\
  (0 < val r -> (forall p, In p P -> val r + margin (hsv p) c <= hval (hsv p) c) -> v = V_FULL).
Proof.
  intros cl P x y z r E HP Hx Hy Hz Hr c. rewrite (test_sphere_64 cl P x y z r E). eexists. split; [reflexivity|].
  destruct (okf_opp 400 r (sane_okf r Hr)) as ((FO & _) & EO). pose proof (proj1 Hr) as FR.
  assert (D : forall p, In p P -> fin (dist64 p x y z) /\ Rabs (val (dist64 p x y z) - hval (hsv p) c) <= margin (hsv p) c) by (intros p Hp; apply dist_err; auto).
  destruct (existsb (fun p => Bleb (dist64 p x y z) (b64_opp r)) P) eqn:E1.
  - apply existsb_exists in E1 as (p & Hp & B). destruct (D p Hp) as (F & M). apply Rabs_le_inv in M. apply (Bleb_fin _ _ F FO) in B. rewrite EO in B.
    split; [intros _; exists p; split; [exact Hp|lra]|]. split; [discriminate|]. split; [reflexivity|].
    intros R0 H. specialize (H p Hp). exfalso. lra.
  - pose proof (existsb_false _ _ E1) as N1. cbv beta in N1.
    assert (NN : forall p, In p P -> - val r < val (dist64 p x y z)).
    { intros p Hp. rewrite <- EO. apply (Bleb_fin_false _ _ (proj1 (D p Hp)) FO). apply N1, Hp. }
    destruct (existsb (fun p => Bltb (dist64 p x y z) r) P) eqn:E2.
    + split; [discriminate|]. split; [discriminate|]. split.
      * intros (p & Hp & H). specialize (NN p Hp). destruct (D p Hp) as (F & M). apply Rabs_le_inv in M. exfalso. lra.
      * intros R0 H. apply existsb_exists in E2 as (p & Hp & B). destruct (D p Hp) as (F & M). apply Rabs_le_inv in M. specialize (H p Hp).
        apply (Bltb_fin _ _ F FR) in B. exfalso. lra.
    + pose proof (existsb_false _ _ E2) as N2. cbv beta in N2. split; [discriminate|]. split.
      * intros _ p Hp. destruct (D p Hp) as (F & M). apply Rabs_le_inv in M. pose proof (proj1 (Bltb_fin_false _ _ F FR) (N2 p Hp)). lra.
      * split; [|reflexivity]. intros (p & Hp & H). specialize (NN p Hp). destruct (D p Hp) as (F & M). apply Rabs_le_inv in M. exfalso. lra.
Qed.
Print Assumptions C125_sphere_culling_in_double.

(** C125 in terms of points: a sphere reported invisible lies, up to the margin
    and the error in the length of the normal, on the negative side of one
    plane; one reported fully visible lies on the positive side of all. *)
Theorem C125_sphere_points_in_double :
  forall (cl : culler) (P : list dplane) (x y z r : f64) (delta : R),
  fc_planes cl = map arr P -> (forall p, In p P -> sane4 p /\ len3R (fst (hsv p)) <= 1 + delta) -> sane x -> sane y -> sane z -> sane r -> 0 <= val r ->
  let c := (val x, val y, val z) in
  exists v, fc_test_sphere cl [x; y; z; r] = Ok v /\
  (v = V_NONE -> exists p, In p P /\ forall q, in_ball c (val r) q -> hval (hsv p) q <= margin (hsv p) c + delta * val r) /\
  (v = V_FULL -> forall p q, In p P -> in_ball c (val r) q -> - (margin (hsv p) c + delta * val r) <= hval (hsv p) q).
Proof.
  intros cl P x y z r delta E HP Hx Hy Hz Hr R0 c.
  destruct (C125_sphere_culling_in_double cl P x y z r E (fun p Hp => proj1 (HP p Hp)) Hx Hy Hz Hr) as (v & Ev & N & F & _). fold c in N, F.
  exists v. split; [exact Ev|].
  assert (B : forall p q, In p P -> in_ball c (val r) q -> Rabs (dot3 (fst (hsv p)) (sub3 q c)) <= (1 + delta) * val r).
  { intros p q Hp Hq. unfold in_ball, dist3 in Hq. eapply Rle_trans; [apply len3_cs|]. apply Rmult_le_compat; [apply len3_nonneg|apply len3_nonneg|apply HP, Hp|exact Hq]. }
  split.
  - intros Hv. destruct (N Hv) as (p & Hp & H). exists p. split; [exact Hp|]. intros q Hq. rewrite (hval_diff (hsv p) q c).
    specialize (B p q Hp Hq). apply Rabs_le_inv in B. lra.
  - intros Hv p q Hp Hq. specialize (F Hv p Hp). rewrite (hval_diff (hsv p) q c). specialize (B p q Hp Hq). apply Rabs_le_inv in B. lra.
Qed.
Print Assumptions C125_sphere_points_in_double.

(** ** Boxes *)
(** The rounding margin of the box test. *)
Definition box_margin (h : hs) (x0 x1 y0 y1 z0 z1 : R) : R :=
  let '((a, b, c), d) := h in
  10 / 2 ^ 53 * (Rabs a * (Rabs (x0 + x1) / 2 + Rabs (x1 - x0) / 2) + Rabs b * (Rabs (y0 + y1) / 2 + Rabs (y1 - y0) / 2) +
                 Rabs c * (Rabs (z0 + z1) / 2 + Rabs (z1 - z0) / 2) + Rabs d) +
  (18 * (Rabs a + Rabs b + Rabs c) + 9) / 2 ^ 1075.

Lemma real_half S X M e : 0 < e -> Rabs (S - X) <= uro * Rabs X -> Rabs (M - S * / 2) <= uro * Rabs (S * / 2) + e ->
  Rabs (M - X / 2) <= 3 * uro * (Rabs X / 2) + e.
Proof.
  rewrite uro_val, Rabs_mult, (Rabs_pos_eq (/ 2)) by lra. intros He R1 R2. apply abs_tri_err in R1 as A1. pose proof (Rabs_pos X).
  apply Rabs_le_inv in R1, R2. apply Rabs_le. split; lra.
Qed.
Lemma real_prod p m X q e : 0 < e -> Rabs (m - X) <= 3 * uro * Rabs X + e -> Rabs (q - p * m) <= uro * Rabs (p * m) + e ->
  Rabs (q - p * X) <= 5 * uro * (Rabs p * Rabs X) + 2 * Rabs p * e + e.
Proof.
  rewrite uro_val, !Rabs_mult. intros He R1 R2. apply abs_tri_err in R1 as A1. pose proof (Rabs_pos p) as Pp. pose proof (Rabs_pos X) as PX.
  assert (B1 : Rabs (p * m - p * X) <= Rabs p * (3 * / 9007199254740992 * Rabs X + e)).
  { replace (p * m - p * X) with (p * (m - X)) by ring. rewrite Rabs_mult. apply Rmult_le_compat_l; assumption. }
  assert (B2 : Rabs p * Rabs m <= Rabs p * (Rabs X + (3 * / 9007199254740992 * Rabs X + e))) by (apply Rmult_le_compat_l; assumption).
  assert (B3 : 0 <= Rabs p * Rabs X) by (apply Rmult_le_pos; assumption). assert (B4 : 0 <= Rabs p * e) by (apply Rmult_le_pos; lra).
  apply Rabs_le_inv in R2, B1. apply Rabs_le. split; lra.
Qed.
Lemma real_sum4 X1 X2 X3 X4 q1 q2 q3 q4 S0 S1 S2 S3 T1 T2 T3 T4 f :
  0 <= T1 -> 0 <= T2 -> 0 <= T3 -> 0 <= T4 -> 0 < f ->
  Rabs (q1 - X1) <= 5 * uro * T1 + f -> Rabs (q2 - X2) <= 5 * uro * T2 + f -> Rabs (q3 - X3) <= 5 * uro * T3 + f -> Rabs (q4 - X4) <= 5 * uro * T4 + f ->
  Rabs X1 <= T1 -> Rabs X2 <= T2 -> Rabs X3 <= T3 -> Rabs X4 <= T4 ->
  Rabs (S0 - (0 + q1)) <= uro * Rabs (0 + q1) -> Rabs (S1 - (S0 + q2)) <= uro * Rabs (S0 + q2) ->
  Rabs (S2 - (S1 + q3)) <= uro * Rabs (S1 + q3) -> Rabs (S3 - (S2 + q4)) <= uro * Rabs (S2 + q4) ->
  Rabs (S3 - (X1 + X2 + X3 + X4)) <= 10 * uro * (T1 + T2 + T3 + T4) + 5 * f.
Proof.
  rewrite uro_val, Rplus_0_l. intros P1 P2 P3 P4 Pf Q1 Q2 Q3 Q4 B1 B2 B3 B4 H0 H1 H2 H3.
  apply abs_tri_err in Q1 as A1. apply abs_tri_err in Q2 as A2. apply abs_tri_err in Q3 as A3. apply abs_tri_err in Q4 as A4.
  apply abs_tri_err in H0 as C0. pose proof (Rabs_triang S0 q2). apply abs_tri_err in H1 as C1. pose proof (Rabs_triang S1 q3). apply abs_tri_err in H2 as C2.
  pose proof (Rabs_triang S2 q4). apply Rabs_le_inv in Q1, Q2, Q3, Q4, H0, H1, H2, H3. apply Rabs_le. split; lra.
Qed.
Lemma real_sum3 X1 X2 X3 q1 q2 q3 S1 S2 T1 T2 T3 f :
  0 <= T1 -> 0 <= T2 -> 0 <= T3 -> 0 < f ->
  Rabs (q1 - X1) <= 5 * uro * T1 + f -> Rabs (q2 - X2) <= 5 * uro * T2 + f -> Rabs (q3 - X3) <= 5 * uro * T3 + f ->
  Rabs X1 <= T1 -> Rabs X2 <= T2 -> Rabs X3 <= T3 ->
  Rabs (S1 - (q1 + q2)) <= uro * Rabs (q1 + q2) -> Rabs (S2 - (S1 + q3)) <= uro * Rabs (S1 + q3) ->
  Rabs (S2 - (X1 + X2 + X3)) <= 10 * uro * (T1 + T2 + T3) + 4 * f.
Proof.
  rewrite uro_val. intros P1 P2 P3 Pf Q1 Q2 Q3 B1 B2 B3 H1 H2.
  apply abs_tri_err in Q1 as A1. apply abs_tri_err in Q2 as A2. apply abs_tri_err in Q3 as A3.
  pose proof (Rabs_triang q1 q2). apply abs_tri_err in H1 as C1. pose proof (Rabs_triang S1 q3). apply abs_tri_err in H2 as C2.
  apply Rabs_le_inv in Q1, Q2, Q3, H1, H2. apply Rabs_le. split; lra.
Qed.

Definition mid64 (x0 x1 : f64) : f64 := b64_mult mode_NE (b64_plus mode_NE x0 x1) f64_half.
Definition ext64 (x0 x1 : f64) : f64 := b64_mult mode_NE (b64_abs (b64_minus mode_NE x1 x0)) f64_half.
Lemma okf_half : okf 0 f64_half.
Proof. apply (okf_const _ (/ 2)); [reflexivity|exact val_half|]. cbn. rewrite Rabs_pos_eq; lra. Qed.
Lemma okf_one : okf 0 f64_one.
Proof. apply (okf_const _ 1); [reflexivity|exact val_one|]. cbn. rewrite Rabs_pos_eq; lra. Qed.
Lemma okf_zero : okf 0 f64_zero /\ val f64_zero = 0.
Proof. assert (E : val f64_zero = 0) by reflexivity. split; [|exact E]. apply (okf_const _ 0); [reflexivity|exact E|]. cbn. rewrite Rabs_R0. lra. Qed.
Lemma Rabs_half r : Rabs (r / 2) = Rabs r / 2.
Proof. unfold Rdiv. rewrite Rabs_mult, (Rabs_pos_eq (/ 2)); lra. Qed.
Lemma mid_err x0 x1 : sane x0 -> sane x1 -> okf 401 (mid64 x0 x1) /\
  Rabs (val (mid64 x0 x1) - (val x0 + val x1) / 2) <= 3 * uro * Rabs ((val x0 + val x1) / 2) + eta.
Proof.
  intros H0 H1. apply sane_okf in H0, H1. destruct (okf_plus 400 401 x0 x1 H0 H1 eq_refl ltac:(lia)) as (O1 & R1).
  destruct (okf_mult 401 0 401 _ _ O1 okf_half eq_refl ltac:(lia)) as (O2 & R2). split; [exact O2|]. rewrite val_half in R2.
  replace (Rabs ((val x0 + val x1) / 2)) with (Rabs (val x0 + val x1) / 2) by (unfold Rdiv; rewrite Rabs_mult, (Rabs_pos_eq (/ 2)); lra).
  exact (real_half _ _ _ _ eta_pos R1 R2).
Qed.
Lemma abs_err x y e : Rabs (x - y) <= e -> Rabs (Rabs x - Rabs y) <= e.
Proof. intros H. eapply Rle_trans; [apply Rabs_triang_inv2|exact H]. Qed.
Lemma ext_err x0 x1 : sane x0 -> sane x1 -> okf 401 (ext64 x0 x1) /\
  Rabs (val (ext64 x0 x1) - Rabs (val x1 - val x0) / 2) <= 3 * uro * Rabs (Rabs (val x1 - val x0) / 2) + eta.
Proof.
  intros H0 H1. apply sane_okf in H0, H1. destruct (okf_minus 400 401 x1 x0 H1 H0 eq_refl ltac:(lia)) as (O1 & R1).
  destruct (okf_abs _ _ O1) as (OA & EA). apply abs_err in R1. rewrite <- EA in R1. rewrite <- (Rabs_Rabsolu (val x1 - val x0)) in R1 at 2.
  destruct (okf_mult 401 0 401 _ _ OA okf_half eq_refl ltac:(lia)) as (O2 & R2). split; [exact O2|]. rewrite val_half in R2.
  rewrite Rabs_half.
  exact (real_half _ _ _ _ eta_pos R1 R2).
Qed.
Definition d64 (p : dplane) (x y z : f64) : f64 :=
  let '(a, b, c, d) := p in
  b64_plus mode_NE (b64_plus mode_NE (b64_plus mode_NE (b64_plus mode_NE f64_zero (b64_mult mode_NE a x)) (b64_mult mode_NE b y)) (b64_mult mode_NE c z)) (b64_mult mode_NE d f64_one).
Definition n64 (p : dplane) (x y z : f64) : f64 :=
  let '(a, b, c, d) := p in
  b64_plus mode_NE (b64_plus mode_NE (b64_mult mode_NE x (b64_abs a)) (b64_mult mode_NE y (b64_abs b))) (b64_mult mode_NE z (b64_abs c)).

Lemma real_prod' p m X q e f : 0 < e -> Rabs (m - X) <= 3 * uro * Rabs X + e -> Rabs (q - p * m) <= uro * Rabs (p * m) + e ->
  2 * Rabs p * e + e <= f -> Rabs (q - p * X) <= 5 * uro * (Rabs p * Rabs X) + f.
Proof. intros He H1 H2 H3. pose proof (real_prod p m X q e He H1 H2). lra. Qed.

Section OneBox.
Variables (p : dplane) (x0 x1 y0 y1 z0 z1 : f64).
Hypothesis (Hp : sane4 p) (X0 : sane x0) (X1 : sane x1) (Y0 : sane y0) (Y1 : sane y1) (Z0 : sane z0) (Z1 : sane z1).
Let D := hval (hsv p) (mid3 (val x0) (val x1) (val y0) (val y1) (val z0) (val z1)).
Let N := rad (fst (hsv p)) (val x0) (val x1) (val y0) (val y1) (val z0) (val z1).
Let dd := d64 p (mid64 x0 x1) (mid64 y0 y1) (mid64 z0 z1).
Let nn := n64 p (ext64 x0 x1) (ext64 y0 y1) (ext64 z0 z1).
Lemma box_err : okf 805 dd /\ okf 805 nn /\
  Rabs (val dd - D) + Rabs (val nn - N) <= box_margin (hsv p) (val x0) (val x1) (val y0) (val y1) (val z0) (val z1).
Proof.
  unfold D, N, dd, nn. clear D N dd nn.
  destruct (mid_err x0 x1 X0 X1) as (Ox & Rx). destruct (mid_err y0 y1 Y0 Y1) as (Oy & Ry). destruct (mid_err z0 z1 Z0 Z1) as (Oz & Rz).
  destruct (ext_err x0 x1 X0 X1) as (Px & Sx). destruct (ext_err y0 y1 Y0 Y1) as (Py & Sy). destruct (ext_err z0 z1 Z0 Z1) as (Pz & Sz).
  set (mx := mid64 x0 x1) in *. set (my := mid64 y0 y1) in *. set (mz := mid64 z0 z1) in *.
  set (ex := ext64 x0 x1) in *. set (ey := ext64 y0 y1) in *. set (ez := ext64 z0 z1) in *.
  destruct p as [[[a b] c] d]. destruct Hp as (Ha & Hb & Hc & Hd). apply sane_okf in Ha, Hb, Hc, Hd.
  cbn [d64 n64 hsv]. unfold box_margin, hval, mid3, rad. cbn [fst snd dot3].
  pose proof eta_pos as EP.
  assert (Ab : forall t, okf 400 t -> okf 400 (b64_abs t) /\ val (b64_abs t) = Rabs (val t)) by (intros; apply okf_abs; assumption).
  destruct (Ab a Ha) as (Oa' & Ea). destruct (Ab b Hb) as (Ob' & Eb). destruct (Ab c Hc) as (Oc' & Ec).
  (* d *)
  destruct (okf_mult 400 401 801 a mx Ha Ox eq_refl ltac:(lia)) as (O1 & Q1). set (q1 := b64_mult mode_NE a mx) in *.
  destruct (okf_mult 400 401 801 b my Hb Oy eq_refl ltac:(lia)) as (O2 & Q2). set (q2 := b64_mult mode_NE b my) in *.
  destruct (okf_mult 400 401 801 c mz Hc Oz eq_refl ltac:(lia)) as (O3 & Q3). set (q3 := b64_mult mode_NE c mz) in *.
  destruct (okf_mult 400 0 400 d f64_one Hd okf_one eq_refl ltac:(lia)) as (O4 & Q4). set (q4 := b64_mult mode_NE d f64_one) in *.
  rewrite val_one, Rmult_1_r in Q4.
  destruct okf_zero as (OZ & EZ).
  destruct (okf_plus 801 802 f64_zero q1 (okf_le 0 801 _ OZ ltac:(lia)) O1 eq_refl ltac:(lia)) as (A1 & S1). set (s1 := b64_plus mode_NE f64_zero q1) in *. rewrite EZ in S1.
  destruct (okf_plus 802 803 s1 q2 A1 (okf_le 801 802 _ O2 ltac:(lia)) eq_refl ltac:(lia)) as (A2 & S2). set (s2 := b64_plus mode_NE s1 q2) in *.
  destruct (okf_plus 803 804 s2 q3 A2 (okf_le 801 803 _ O3 ltac:(lia)) eq_refl ltac:(lia)) as (A3 & S3). set (s3 := b64_plus mode_NE s2 q3) in *.
  destruct (okf_plus 804 805 s3 q4 A3 (okf_le 400 804 _ O4 ltac:(lia)) eq_refl ltac:(lia)) as (A4 & S4). set (s4 := b64_plus mode_NE s3 q4) in *.
  split; [exact A4|].
  (* n *)
  destruct (okf_mult 401 400 801 ex (b64_abs a) Px Oa' eq_refl ltac:(lia)) as (U1 & V1). set (w1 := b64_mult mode_NE ex (b64_abs a)) in *.
  destruct (okf_mult 401 400 801 ey (b64_abs b) Py Ob' eq_refl ltac:(lia)) as (U2 & V2). set (w2 := b64_mult mode_NE ey (b64_abs b)) in *.
  destruct (okf_mult 401 400 801 ez (b64_abs c) Pz Oc' eq_refl ltac:(lia)) as (U3 & V3). set (w3 := b64_mult mode_NE ez (b64_abs c)) in *.
  destruct (okf_plus 801 802 w1 w2 U1 U2 eq_refl ltac:(lia)) as (B1 & T1). set (t1 := b64_plus mode_NE w1 w2) in *.
  destruct (okf_plus 802 803 t1 w3 B1 (okf_le 801 802 _ U3 ltac:(lia)) eq_refl ltac:(lia)) as (B2 & T2). set (t2 := b64_plus mode_NE t1 w3) in *.
  split; [exact (okf_le 803 805 _ B2 ltac:(lia))|].
  rewrite Ea in V1. rewrite Eb in V2. rewrite Ec in V3.
  rewrite (Rmult_comm (val ex)) in V1. rewrite (Rmult_comm (val ey)) in V2. rewrite (Rmult_comm (val ez)) in V3.
  set (f := 2 * (Rabs (val a) + Rabs (val b) + Rabs (val c)) * eta + eta).
  pose proof (Rabs_pos (val a)) as Na. pose proof (Rabs_pos (val b)) as Nb. pose proof (Rabs_pos (val c)) as Nc. pose proof (Rabs_pos (val d)) as Nd.
  assert (Ma : 0 <= Rabs (val a) * eta) by (apply Rmult_le_pos; lra). assert (Mb : 0 <= Rabs (val b) * eta) by (apply Rmult_le_pos; lra). assert (Mc : 0 <= Rabs (val c) * eta) by (apply Rmult_le_pos; lra).
  assert (Fp : 0 < f) by (unfold f; lra).
  assert (Fa : 2 * Rabs (val a) * eta + eta <= f) by (unfold f; lra). assert (Fb : 2 * Rabs (val b) * eta + eta <= f) by (unfold f; lra). assert (Fc : 2 * Rabs (val c) * eta + eta <= f) by (unfold f; lra).
  pose proof (real_prod' _ _ _ _ _ f EP Rx Q1 Fa) as G1. pose proof (real_prod' _ _ _ _ _ f EP Ry Q2 Fb) as G2. pose proof (real_prod' _ _ _ _ _ f EP Rz Q3 Fc) as G3.
  assert (G4 : Rabs (val q4 - val d) <= 5 * uro * Rabs (val d) + f) by (pose proof uro_pos; unfold f; nra).
  assert (AA : forall r, Rabs (Rabs r) = Rabs r) by (intros; apply Rabs_Rabsolu).
  pose proof (real_prod' (Rabs (val a)) _ _ _ _ f EP Sx V1 ltac:(rewrite AA; exact Fa)) as K1.
  pose proof (real_prod' (Rabs (val b)) _ _ _ _ f EP Sy V2 ltac:(rewrite AA; exact Fb)) as K2.
  pose proof (real_prod' (Rabs (val c)) _ _ _ _ f EP Sz V3 ltac:(rewrite AA; exact Fc)) as K3.
  assert (PM : forall u v, 0 <= Rabs u * Rabs v) by (intros; apply Rmult_le_pos; apply Rabs_pos).
  pose proof (real_sum4 _ _ _ _ _ _ _ _ _ _ _ _ _ _ _ _ f (PM _ _) (PM _ _) (PM _ _) Nd Fp G1 G2 G3 G4
    ltac:(rewrite Rabs_mult; apply Rle_refl) ltac:(rewrite Rabs_mult; apply Rle_refl) ltac:(rewrite Rabs_mult; apply Rle_refl) (Rle_refl _) S1 S2 S3 S4) as E1.
  pose proof (real_sum3 _ _ _ _ _ _ _ _ _ _ _ f (PM _ _) (PM _ _) (PM _ _) Fp K1 K2 K3
    ltac:(rewrite Rabs_mult; apply Rle_refl) ltac:(rewrite Rabs_mult; apply Rle_refl) ltac:(rewrite Rabs_mult; apply Rle_refl) T1 T2) as E2.
  rewrite !AA in E2.
  assert (HH : forall r, Rabs (r / 2) = Rabs r / 2) by (intros; unfold Rdiv; rewrite Rabs_mult, (Rabs_pos_eq (/ 2)); lra).
  rewrite !HH in E1, E2. rewrite !AA in E2.
  rewrite (Rmult_comm (Rabs (val x1 - val x0) / 2)), (Rmult_comm (Rabs (val y1 - val y0) / 2)), (Rmult_comm (Rabs (val z1 - val z0) / 2)).
  eapply Rle_trans; [apply Rplus_le_compat; [exact E1|exact E2]|]. unfold Rdiv. change (/ 2 ^ 1075) with eta. change (/ 2 ^ 53) with uro.
  pose proof uro_pos. unfold f. nra.
Qed.
End OneBox.

Lemma test_aabb_64 (cfg : Cfg) cl (P : list dplane) x0 x1 y0 y1 z0 z1 : fc_planes cl = map arr P ->
  let D := fun p => d64 p (mid64 x0 x1) (mid64 y0 y1) (mid64 z0 z1) in let N := fun p => n64 p (ext64 x0 x1) (ext64 y0 y1) (ext64 z0 z1) in
  fc_test_aabb cl [x0; x1] [y0; y1] [z0; z1] =
  Ok (if existsb (fun p => negb (Bleb f64_zero (b64_minus mode_NE (D p) (N p))) && negb (Bltb f64_zero (b64_plus mode_NE (D p) (N p)))) P then V_NONE
      else if existsb (fun p => negb (Bleb f64_zero (b64_minus mode_NE (D p) (N p)))) P then V_PARTIAL else V_FULL).
Proof.
  intros E D N. unfold fc_test_aabb. rewrite E. unfold vat, vec_set3.
  assert (TP : forall p m0 m1 m2 e0 e1 e2, fc_test_plane (arr p) [m0; m1; m2] [e0; e1; e2] =
    Ok (if Bleb f64_zero (b64_minus mode_NE (d64 p m0 m1 m2) (n64 p e0 e1 e2)) then V_FULL else if Bltb f64_zero (b64_plus mode_NE (d64 p m0 m1 m2) (n64 p e0 e1 e2)) then V_PARTIAL else V_NONE)).
  { intros [[[a b] c] d] m0 m1 m2 e0 e1 e2. unfold fc_test_plane, vec_to_hom, vec_dot, vset, vat, for_. cbn [d64 n64 arr].
    destruct safe; cbn -[b64_plus b64_minus b64_mult b64_abs Bleb Bltb f64_zero f64_one]; reflexivity. }
  set (body := fun (p middle extent : list f64) (result : visibility) => v <- fc_test_plane p middle extent ;;
      Ok (match v with V_FULL => inl result | V_PARTIAL => inl V_PARTIAL | V_NONE => inr V_NONE end)).
  assert (G : forall vis, fc_steps (fun p => body p [mid64 x0 x1; mid64 y0 y1; mid64 z0 z1] [ext64 x0 x1; ext64 y0 y1; ext64 z0 z1]) (map arr P) vis =
    Ok (if existsb (fun p => negb (Bleb f64_zero (b64_minus mode_NE (D p) (N p))) && negb (Bltb f64_zero (b64_plus mode_NE (D p) (N p)))) P then V_NONE
      else if existsb (fun p => negb (Bleb f64_zero (b64_minus mode_NE (D p) (N p)))) P then V_PARTIAL else vis)).
  { clear E. induction P as [|p P IH]; intros vis; cbn [map fc_steps existsb]; [reflexivity|].
    unfold body at 1. rewrite TP. cbn [bind]. fold (D p) (N p).
    destruct (Bleb f64_zero (b64_minus mode_NE (D p) (N p))); cbn [negb andb orb]; [apply IH|].
    destruct (Bltb f64_zero (b64_plus mode_NE (D p) (N p))); cbn [negb andb orb]; [|reflexivity].
    rewrite IH. destruct (existsb (fun h0 => _ && _) P); [reflexivity|]. destruct (existsb _ P); reflexivity. }
  specialize (G V_FULL). unfold body, mid64, ext64 in G.
  destruct safe; cbn -[map fc_steps fc_test_plane b64_plus b64_minus b64_mult b64_abs Bleb Bltb f64_zero f64_one f64_half]; exact G.
Qed.

(** The sign of a rounded sum or difference is the sign of the exact one. *)
Lemma sign_minus a b : okf 805 a -> okf 805 b -> (Bleb f64_zero (b64_minus mode_NE a b) = true <-> val b <= val a).
Proof.
  intros Ha Hb. destruct (okf_minus 805 806 a b Ha Hb eq_refl ltac:(lia)) as ((F & _) & R1). destruct okf_zero as ((FZ & _) & EZ).
  rewrite (Bleb_fin _ _ FZ F), EZ. rewrite uro_val in R1. apply Rabs_le_inv in R1. unfold Rabs in R1. destruct (Rcase_abs (val a - val b)); split; intros; lra.
Qed.
Lemma sign_plus a b : okf 805 a -> okf 805 b -> (Bltb f64_zero (b64_plus mode_NE a b) = true <-> 0 < val a + val b).
Proof.
  intros Ha Hb. destruct (okf_plus 805 806 a b Ha Hb eq_refl ltac:(lia)) as ((F & _) & R1). destruct okf_zero as ((FZ & _) & EZ).
  rewrite (Bltb_fin _ _ FZ F), EZ. rewrite uro_val in R1. apply Rabs_le_inv in R1. unfold Rabs in R1. destruct (Rcase_abs (val a + val b)); split; intros; lra.
Qed.

(** C125: the answer of test_aabb is the exact one up to the margin, for every
    finite set of planes and every box. *)
Theorem C125_box_culling_in_double :
  forall (cfg : Cfg) (cl : culler) (P : list dplane) (x0 x1 y0 y1 z0 z1 : f64),
  fc_planes cl = map arr P -> (forall p, In p P -> sane4 p) ->
  sane x0 -> sane x1 -> sane y0 -> sane y1 -> sane z0 -> sane z1 ->
  let box := in_span (val x0) (val x1) (val y0) (val y1) (val z0) (val z1) in
  let mg := fun p => box_margin (hsv p) (val x0) (val x1) (val y0) (val y1) (val z0) (val z1) in
  exists v, fc_test_aabb cl [x0; x1] [y0; y1] [z0; z1] = Ok v /\
  (v = V_NONE -> exists p, In p P /\ forall q, box q -> hval (hsv p) q <= mg p) /\
  (v = V_FULL -> forall p q, In p P -> box q -> - mg p <= hval (hsv p) q) /\
  ((exists p, In p P /\ forall q, box q -> hval (hsv p) q < - mg p) -> v = V_NONE) /\
  ((forall p q, In p P -> box q -> mg p <= hval (hsv p) q) -> v = V_FULL).
Proof.
  intros cfg cl P x0 x1 y0 y1 z0 z1 E HP X0 X1 Y0 Y1 Z0 Z1 box mg. pose proof (test_aabb_64 cfg cl P x0 x1 y0 y1 z0 z1 E) as T. cbv zeta in T. rewrite T. clear T.
  eexists. split; [reflexivity|].
  set (D := fun p => d64 p (mid64 x0 x1) (mid64 y0 y1) (mid64 z0 z1)). set (N := fun p => n64 p (ext64 x0 x1) (ext64 y0 y1) (ext64 z0 z1)).
  assert (BE : forall p, In p P -> okf 805 (D p) /\ okf 805 (N p) /\
    Rabs (val (D p) - hval (hsv p) (mid3 (val x0) (val x1) (val y0) (val y1) (val z0) (val z1))) +
    Rabs (val (N p) - rad (fst (hsv p)) (val x0) (val x1) (val y0) (val y1) (val z0) (val z1)) <= mg p) by (intros p Hp; apply box_err; auto).
  assert (B1 : forall p, In p P -> (Bleb f64_zero (b64_minus mode_NE (D p) (N p)) = true <-> val (N p) <= val (D p))) by (intros p Hp; destruct (BE p Hp) as (A & B & _); apply sign_minus; assumption).
  assert (B2 : forall p, In p P -> (Bltb f64_zero (b64_plus mode_NE (D p) (N p)) = true <-> 0 < val (D p) + val (N p))) by (intros p Hp; destruct (BE p Hp) as (A & B & _); apply sign_plus; assumption).
  assert (PT : forall p q, In p P -> box q -> - mg p + (val (D p) - val (N p)) <= hval (hsv p) q <= val (D p) + val (N p) + mg p).
  { intros p q Hp Hq. destruct (BE p Hp) as (_ & _ & M). pose proof (hval_mid (hsv p) _ _ _ _ _ _ q Hq) as HM.
    pose proof (Rabs_fact (val (D p) - hval (hsv p) (mid3 (val x0) (val x1) (val y0) (val y1) (val z0) (val z1)))).
    pose proof (Rabs_fact (val (N p) - rad (fst (hsv p)) (val x0) (val x1) (val y0) (val y1) (val z0) (val z1))). lra. }
  assert (EX : forall p s, In p P -> s = 1 \/ s = -1 -> exists q, box q /\ Rabs (hval (hsv p) q - (val (D p) + s * val (N p))) <= mg p).
  { intros p s Hp Hs. destruct (BE p Hp) as (_ & _ & M). destruct (hval_mid_ext (hsv p) (val x0) (val x1) (val y0) (val y1) (val z0) (val z1) s Hs) as (q & Hq & Eq).
    exists q. split; [exact Hq|]. rewrite Eq. eapply Rle_trans; [|exact M].
    match goal with |- Rabs (?h + s * ?r - (?d + s * ?n)) <= _ => replace (h + s * r - (d + s * n)) with (- (d - h) + - (s * (n - r))) by ring end.
    eapply Rle_trans; [apply Rabs_triang|]. rewrite !Rabs_Ropp, Rabs_mult. destruct Hs as [-> | ->]; [rewrite Rabs_R1|rewrite (Rabs_left (-1)) by lra]; lra. }
  match goal with |- context [existsb ?f P] => set (P1 := f) end.
  match goal with |- context [if existsb P1 P then _ else if existsb ?f P then _ else _] => set (P2 := f) end.
  destruct (existsb P1 P) eqn:E1.
  - apply existsb_exists in E1 as (p & Hp & B). unfold P1 in B. apply andb_prop in B as (B & C). apply Bool.negb_true_iff in B, C.
    assert (L1 : val (D p) < val (N p)). { destruct (Rle_lt_dec (val (N p)) (val (D p))) as [L|L]; [apply (B1 p Hp) in L; destruct (Bool.eq_true_false_abs _ L B)|exact L]. }
    assert (L2 : val (D p) + val (N p) <= 0). { destruct (Rlt_le_dec 0 (val (D p) + val (N p))) as [L|L]; [apply (B2 p Hp) in L; destruct (Bool.eq_true_false_abs _ L C)|exact L]. }
    split; [intros _; exists p; split; [exact Hp|]; intros q Hq; specialize (PT p q Hp Hq); lra|]. split; [discriminate|]. split; [reflexivity|].
    intros H. exfalso. destruct (EX p (-1) Hp (or_intror eq_refl)) as (q & Hq & M). specialize (H p q Hp Hq). apply Rabs_le_inv in M. lra.
  - pose proof (existsb_false _ _ E1) as N1. unfold P1 in N1.
    assert (NN : forall p, In p P -> val (N p) <= val (D p) \/ 0 < val (D p) + val (N p)).
    { intros p Hp. specialize (N1 p Hp). apply Bool.andb_false_iff in N1 as [H|H]; apply Bool.negb_false_iff in H; [left; apply (B1 p Hp), H|right; apply (B2 p Hp), H]. }
    assert (NO : (exists p, In p P /\ forall q, box q -> hval (hsv p) q < - mg p) -> False).
    { intros (p & Hp & H). destruct (EX p 1 Hp (or_introl eq_refl)) as (q & Hq & M). specialize (H q Hq) as H1. apply Rabs_le_inv in M.
      destruct (EX p (-1) Hp (or_intror eq_refl)) as (q' & Hq' & M'). specialize (H q' Hq') as H2. apply Rabs_le_inv in M'.
      destruct (NN p Hp) as [L|L]; lra. }
    destruct (existsb P2 P) eqn:E2.
    + split; [discriminate|]. split; [discriminate|]. split; [intros H; destruct (NO H)|].
      intros H. exfalso. apply existsb_exists in E2 as (p & Hp & B). unfold P2 in B. apply Bool.negb_true_iff in B.
      destruct (EX p (-1) Hp (or_intror eq_refl)) as (q & Hq & M). specialize (H p q Hp Hq). apply Rabs_le_inv in M.
      destruct (Rle_lt_dec (val (N p)) (val (D p))) as [L|L]; [apply (B1 p Hp) in L; destruct (Bool.eq_true_false_abs _ L B)|lra].
    + pose proof (existsb_false _ _ E2) as N2. unfold P2 in N2. split; [discriminate|]. split; [|split; [intros H; destruct (NO H)|reflexivity]].
      intros _ p q Hp Hq. specialize (N2 p Hp). apply Bool.negb_false_iff in N2. apply (B1 p Hp) in N2. specialize (PT p q Hp Hq). lra.
Qed.
Print Assumptions C125_box_culling_in_double.
(** The cube |x|, |y|, |z| <= 2 as six planes of doubles, a sphere inside it, one
    outside, one across a face; a box inside and one outside. *)
Definition cube64 : list dplane :=
  let m := b64_opp f64_one in let o := f64_one in let z := f64_zero in let w := f64_two in
  [(o, z, z, w); (m, z, z, w); (z, o, z, w); (z, m, z, w); (z, z, o, w); (z, z, m, w)].
Definition cube64c : culler (T := f64) :=
  let m := b64_opp f64_one in let o := f64_one in let z := f64_zero in let w := f64_two in
  ([o; z; z; w], [m; z; z; w], [z; o; z; w], [z; m; z; w], [z; z; o; w], [z; z; m; w]).
Definition f64_four : f64 := b64_of_bits 0x4010000000000000.
Lemma pow400 : 2 <= 2 ^ 400.
Proof. replace 2 with (2 ^ 1) at 1 by ring. apply Rle_pow; [lra|lia]. Qed.
Lemma sane_one : sane f64_one.
Proof. split; [reflexivity|]. rewrite val_one, Rabs_R1. pose proof pow400; lra. Qed.
Lemma sane_two : sane f64_two.
Proof. split; [reflexivity|]. rewrite val_two, Rabs_pos_eq by lra. exact pow400. Qed.
Lemma sane_zero : sane f64_zero.
Proof. split; [reflexivity|]. change (val f64_zero) with 0. rewrite Rabs_R0. pose proof pow400; lra. Qed.
Lemma sane_half : sane f64_half.
Proof. split; [reflexivity|]. rewrite val_half, Rabs_pos_eq by lra. pose proof pow400; lra. Qed.
Lemma sane_opp x : sane x -> sane (b64_opp x).
Proof.
  intros H. destruct (okf_opp 400 x (sane_okf x H)) as ((F & _) & E). split; [exact F|]. rewrite E, Rabs_Ropp. apply H.
Qed.
Example C125_hypotheses_met :
  fc_planes cube64c = map arr cube64 /\ (forall p, In p cube64 -> sane4 p /\ len3R (fst (hsv p)) <= 1 + 0) /\
  sane f64_one /\ sane f64_half /\ sane f64_zero /\ sane f64_two /\
  fc_test_sphere cube64c [f64_one; f64_one; f64_zero; f64_half] = Ok V_FULL /\
  fc_test_sphere cube64c [f64_two; f64_one; f64_zero; f64_half] = Ok V_PARTIAL /\
  fc_test_sphere cube64c [f64_four; f64_one; f64_zero; f64_half] = Ok V_NONE /\
  (forall cfg : Cfg, fc_test_aabb cube64c [f64_half; f64_one] [f64_zero; f64_one] [f64_zero; f64_one] = Ok V_FULL).
Proof.
  split; [reflexivity|]. split.
  { intros p Hp. pose proof sane_one as S1. pose proof sane_two as S2. pose proof sane_zero as S0. pose proof (sane_opp _ S1) as SM.
    destruct (okf_opp 400 f64_one (sane_okf _ S1)) as (_ & EM).
    unfold cube64 in Hp. cbn [In] in Hp.
    destruct Hp as [<-|[<-|[<-|[<-|[<-|[<-|[]]]]]]]; (split; [repeat split; try apply S1; try apply S2; try apply S0; try apply SM|]);
    cbn [hsv fst]; rewrite ?EM, ?val_one; change (val f64_zero) with 0; unfold len3R, dot3; cbn [fst snd];
    match goal with |- sqrt ?e <= _ => replace e with 1 by ring end; rewrite sqrt_1; lra. }
  split; [apply sane_one|]. split; [apply sane_half|]. split; [apply sane_zero|]. split; [apply sane_two|].
  split; [vm_compute; reflexivity|]. split; [vm_compute; reflexivity|]. split; [vm_compute; reflexivity|].
  intros cfg. vm_compute. reflexivity.
Qed.
