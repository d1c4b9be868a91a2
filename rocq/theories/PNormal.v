(** Property C187: compute_normal in double precision. *)
From Coq Require Import ZArith Reals Lra Psatz List.
From Flocq Require Import Core.Core IEEE754.BinarySingleNaN IEEE754.Binary IEEE754.Bits.
From Verif Require Import InstF MVector LVector LMatrix LVector2 Spec LSum LVectorR LVecProps2 PFloat LFloat PFloat2 LErr Spec10 LExt PCuller3 PFloat3 PFloat4 PFrustumF PFloat5 PAabb PRayF LNormal.
Import ListNotations.
Local Open Scope R_scope.
Local Open Scope list_scope.
Local Existing Instance F64Scalar.
Local Notation bp := (bpow radix2).

(** normalize() on three components, in terms of the plain length. *)
Lemma normalize3 (cfg : Cfg) (d : f64 * f64 * f64) :
  (forall k, (k < 3)%nat -> fin (comp k d) /\ Rabs (val (comp k d)) <= 2 ^ 500) -> / 2 ^ 450 <= len3R (vals d) ->
  exists r m, vec_normalize 3 (l3 d) = Ok (r, l3 m) /\
  (forall k, (k < 3)%nat -> fin (comp k m) /\ Rabs (val (comp k m) - val (comp k d) / len3R (vals d)) <= 12 * uro * Rabs (val (comp k d) / len3R (vals d)) + eta) /\
  Rabs (len3R (vals m) - 1) <= 7 / 2 ^ 52.
Proof.
  intros HF HL. assert (Hd : repV 3 (l3 d) (fun k => comp k d)).
  { destruct d as [[x y] z]. split; [reflexivity|]. intros i Hi. destruct i as [|[|[|i]]]; try lia; reflexivity. }
  assert (EL : forall d : f64 * f64 * f64, lenR 3 (fun k => val (comp k d)) = len3R (vals d)).
  { intros [[x y] z]. unfold lenR, dotR, len3R, vals, dot3. cbn [rsum]. f_equal. cbn -[val]. ring. }
  destruct (C116_normalize_error cfg 3 (l3 d) _ Hd ltac:(cbn; lia) HF) as (n & v' & g & E & _ & (L & N) & G & U); [rewrite EL; exact HL|].
  rewrite EL in G. exists n, (g 0%nat, g 1%nat, g 2%nat).
  assert (EV : v' = [g 0%nat; g 1%nat; g 2%nat]).
  { pose proof (N 0%nat ltac:(lia)). pose proof (N 1%nat ltac:(lia)). pose proof (N 2%nat ltac:(lia)).
    destruct v' as [|a [|b [|c [|]]]]; try discriminate L. cbn in *. congruence. }
  split; [rewrite E, EV; reflexivity|]. split.
  - intros k Hk. assert (comp k (g 0%nat, g 1%nat, g 2%nat) = g k) as ->. { destruct k as [|[|[|k]]]; try lia; reflexivity. }
    destruct (G k Hk) as (F & B). split; [exact F|]. eapply Rle_trans; [exact B|]. apply Req_le. change (/ 2 ^ 1075) with eta.
    rewrite uro_val. cbn [INR]. replace (2 ^ 52) with 4503599627370496 by (cbn; lra). lra.
  - rewrite <- EL. replace (7 / 2 ^ 52) with ((INR 3 + 4) / 2 ^ 52) by (cbn [INR]; f_equal; lra).
    replace (lenR 3 (fun k => val (comp k (g 0%nat, g 1%nat, g 2%nat)))) with (lenR 3 (fun k => val (g k))); [exact U|].
    unfold lenR, dotR. cbn [rsum comp fst snd]. reflexivity.
Qed.
Local Notation "a -' b" := (b64_minus mode_NE a b) (at level 50, left associativity).
Local Notation "a *' b" := (b64_mult mode_NE a b) (at level 40, left associativity).
Definition fsub3 (p q : f64 * f64 * f64) : f64 * f64 * f64 :=
  let '(a, b, c) := p in let '(x, y, z) := q in (a -' x, b -' y, c -' z).
Definition fcross3 (p q : f64 * f64 * f64) : f64 * f64 * f64 :=
  let '(a, b, c) := p in let '(x, y, z) := q in (b *' z -' c *' y, c *' x -' a *' z, a *' y -' b *' x).
Lemma normal_steps (cfg : Cfg) (t a b c : f64 * f64 * f64) :
  let r := '(_, v) <- vec_normalize 3 (l3 (fcross3 (fsub3 b a) (fsub3 c a))) ;; Ok v in
  vec_compute_normal (l3 a) (l3 b) (l3 c) = r /\
  vec_compute_normal_into (l3 t) (Val (l3 a)) (Val (l3 b)) (Val (l3 c)) = r /\
  vec_compute_normal_into (l3 a) Self (Val (l3 b)) (Val (l3 c)) = r /\
  vec_compute_normal_into (l3 b) (Val (l3 a)) Self (Val (l3 c)) = r /\
  vec_compute_normal_into (l3 c) (Val (l3 a)) (Val (l3 b)) Self = r.
Proof.
  destruct t as [[t0 t1] t2], a as [[a0 a1] a2], b as [[b0 b1] b2], c as [[c0 c1] c2]. cbv zeta.
  repeat split; unfold vec_compute_normal, vec_compute_normal_into; cbn [argl l3 fcross3 fsub3]; reflexivity.
Qed.
Lemma edge (i : Z) (a b : f64 * f64 * f64) : (0 <= i < 1000)%Z -> (forall k, (k < 3)%nat -> fin (comp k a) /\ Rabs (val (comp k a)) <= bp i) ->
  (forall k, (k < 3)%nat -> fin (comp k b) /\ Rabs (val (comp k b)) <= bp i) ->
  forall k, (k < 3)%nat -> okf (i + 1) (comp k (fsub3 b a)) /\
  exists d, Rabs d <= uro /\ val (comp k (fsub3 b a)) = comp k (sub3 (vals b) (vals a)) * (1 + d).
Proof.
  intros Hi HA HB k Hk. specialize (HA k Hk). specialize (HB k Hk).
  assert (O : forall x y : f64, fin x /\ Rabs (val x) <= bp i -> fin y /\ Rabs (val y) <= bp i ->
     okf (i + 1) (x -' y) /\ exists d, Rabs d <= uro /\ val (x -' y) = (val x - val y) * (1 + d)).
  { intros x y OX OY. split; [apply (okf_minus i (i + 1) x y OX OY eq_refl ltac:(lia))|]. destruct (rel1_minus i x y OX OY ltac:(lia)) as (_ & R). exact R. }
  destruct a as [[a0 a1] a2], b as [[b0 b1] b2]. destruct k as [|[|[|k]]]; try lia; cbn [fsub3 sub3 vals comp fst snd] in *; apply O; assumption.
Qed.

(** C187: for a triangle whose coordinates are at most 2^240, whose normal
    N = (b-a) x (c-a) is not below 2^-400 and which is not too thin (the
    quotient of |b-a||c-a| and |N|, the reciprocal of the sine of the angle at
    a, is at most 2^40), the computed normal is within 30 half-ulps times that
    quotient of the exact unit normal, has almost length one, is almost
    orthogonal to both edges and lies on the counter-clockwise side; overwriting
    one of the vertices gives the same result. *)
Theorem C187_compute_normal_error :
  forall (cfg : Cfg) (t a b c : f64 * f64 * f64),
  (forall k, (k < 3)%nat -> fin (comp k a) /\ Rabs (val (comp k a)) <= 2 ^ 240) ->
  (forall k, (k < 3)%nat -> fin (comp k b) /\ Rabs (val (comp k b)) <= 2 ^ 240) ->
  (forall k, (k < 3)%nat -> fin (comp k c) /\ Rabs (val (comp k c)) <= 2 ^ 240) ->
  let U := sub3 (vals b) (vals a) in let W := sub3 (vals c) (vals a) in let N := cross3 U W in
  let X := len3R U * len3R W / len3R N in
  / 2 ^ 400 <= len3R N -> X <= 2 ^ 40 ->
  exists m, vec_compute_normal (l3 a) (l3 b) (l3 c) = Ok (l3 m) /\
    vec_compute_normal_into (l3 t) (Val (l3 a)) (Val (l3 b)) (Val (l3 c)) = Ok (l3 m) /\
    vec_compute_normal_into (l3 a) Self (Val (l3 b)) (Val (l3 c)) = Ok (l3 m) /\
    vec_compute_normal_into (l3 b) (Val (l3 a)) Self (Val (l3 c)) = Ok (l3 m) /\
    vec_compute_normal_into (l3 c) (Val (l3 a)) (Val (l3 b)) Self = Ok (l3 m) /\
    (forall k, (k < 3)%nat -> fin (comp k m)) /\
    len3R (sub3 (vals m) (scale3 (/ len3R N) N)) <= 30 / 2 ^ 53 * X /\
    Rabs (len3R (vals m) - 1) <= 7 / 2 ^ 52 /\
    Rabs (dot3 (vals m) U) <= 30 / 2 ^ 53 * X * len3R U /\
    Rabs (dot3 (vals m) W) <= 30 / 2 ^ 53 * X * len3R W /\
    0 < dot3 (vals m) N.
Proof.
  intros cfg t a b c HA HB HC U W N X HN HX.
  assert (E240 : 2 ^ 240 = bp 240) by exact (eq_sym (bpow_pow 240)).
  assert (P400 : 0 < / 2 ^ 400) by (apply Rinv_0_lt_compat, pow_lt; lra).
  assert (N0 : 0 < len3R N) by lra. assert (UV := uro_val). assert (U5 : 0 < uro <= / 100000) by (rewrite UV; lra).
  assert (LX : len3R U * len3R W = X * len3R N) by (unfold X; field; lra).
  assert (HL : len3R U * len3R W * uro <= len3R N / 400).
  { rewrite LX. replace (X * len3R N * uro) with (X * uro * len3R N) by ring. unfold Rdiv. rewrite (Rmult_comm (len3R N)). apply Rmult_le_compat_r; [lra|].
    apply Rle_trans with (2 ^ 40 * uro); [apply Rmult_le_compat_r; lra|]. rewrite UV. replace (2 ^ 40) with 1099511627776 by (cbn; lra). lra. }
  assert (HE : 3 * eta <= uro / 1000 * (len3R U * len3R W)).
  { apply Rle_trans with (uro / 1000 * bp (-400)).
    - rewrite <- eta_bpow. apply Rle_trans with (bp (-1072)).
      + change (-1072)%Z with (2 + -1074)%Z. rewrite bpow_plus. change (bp 2) with 4. pose proof (bpow_gt_0 radix2 (-1074)). lra.
      + change (-1072)%Z with (-672 + -400)%Z. rewrite bpow_plus. apply Rmult_le_compat_r; [apply bpow_ge_0|].
        apply Rle_trans with (bp (-64)); [apply bpow_le; lia|]. change (bp (-64)) with (/ 18446744073709551616). rewrite UV. lra.
    - apply Rmult_le_compat_l; [lra|]. eapply Rle_trans; [|apply len_cross_le]. fold N. eapply Rle_trans; [|exact HN]. apply Req_le.
      change (-400)%Z with (Z.opp 400). rewrite bpow_opp. f_equal. exact (bpow_pow 400). }
  assert (EU := edge 240 a b ltac:(lia) ltac:(rewrite <- E240; exact HA) ltac:(rewrite <- E240; exact HB)).
  assert (EW := edge 240 a c ltac:(lia) ltac:(rewrite <- E240; exact HA) ltac:(rewrite <- E240; exact HC)).
  destruct (normal_steps cfg t a b c) as (S1 & S2 & S3 & S4 & S5). cbv zeta in *.
  fold U in EU. fold W in EW. set (u := fsub3 b a) in *. set (w := fsub3 c a) in *.
  assert (OK : forall k, (k < 3)%nat -> fin (comp k (fcross3 u w)) /\ Rabs (val (comp k (fcross3 u w))) <= 2 ^ 500).
  { assert (O : forall p q r s, okf 241 p -> okf 241 q -> okf 241 r -> okf 241 s -> fin (p *' q -' r *' s) /\ Rabs (val (p *' q -' r *' s)) <= 2 ^ 500).
    { intros p q r s HP HQ HR HS. destruct (okf_mult 241 241 482 p q HP HQ eq_refl ltac:(lia)) as (O1 & _). destruct (okf_mult 241 241 482 r s HR HS eq_refl ltac:(lia)) as (O2 & _).
      destruct (okf_minus 482 483 _ _ O1 O2 eq_refl ltac:(lia)) as ((F & B) & _). split; [exact F|]. rewrite E500. eapply Rle_trans; [exact B|]. apply bpow_le. lia. }
    destruct (EU 0%nat ltac:(lia)) as (U0 & _). destruct (EU 1%nat ltac:(lia)) as (U1 & _). destruct (EU 2%nat ltac:(lia)) as (U2 & _).
    destruct (EW 0%nat ltac:(lia)) as (W0 & _). destruct (EW 1%nat ltac:(lia)) as (W1 & _). destruct (EW 2%nat ltac:(lia)) as (W2 & _).
    clearbody u w. destruct u as [[u0 u1] u2], w as [[w0 w1] w2]. cbn [comp fst snd] in *.
    intros k Hk. destruct k as [|[|[|k]]]; try lia; cbn [fcross3 comp fst snd]; apply O; assumption. }
  assert (CORE : len3R (sub3 (vals (fcross3 u w)) N) <= 88 / 10 * uro * (len3R U * len3R W) /\ len3R N / 2 <= len3R (vals (fcross3 u w))).
  { destruct (EU 0%nat ltac:(lia)) as (U0 & d0 & D0 & V0). destruct (EU 1%nat ltac:(lia)) as (U1 & d1 & D1 & V1). destruct (EU 2%nat ltac:(lia)) as (U2 & d2 & D2 & V2).
    destruct (EW 0%nat ltac:(lia)) as (W0 & g0 & G0 & Z0). destruct (EW 1%nat ltac:(lia)) as (W1 & g1 & G1 & Z1). destruct (EW 2%nat ltac:(lia)) as (W2 & g2 & G2 & Z2).
    pose proof (normal_core uro eta U W (vals (fcross3 u w)) U5 (Rlt_le _ _ eta_pos)) as K.
    clearbody u w. clear S1 S2 S3 S4 S5 EU EW X LX HX. unfold N in *. clear N. clearbody U W.
    destruct u as [[u0 u1] u2], w as [[w0 w1] w2], U as [[X0 X1] X2], W as [[Y0 Y1] Y2]. cbn [fcross3 vals cross3] in K. cbn [comp fst snd] in *. cbn [cross3] in HL, N0, HE.
    pose proof (fun x O => okf_le 241 500 x O ltac:(lia)) as LE.
    destruct (cross_comp u1 w2 u2 w1 (LE _ U1) (LE _ W2) (LE _ U2) (LE _ W1)) as (_ & C0).
    destruct (cross_comp u2 w0 u0 w2 (LE _ U2) (LE _ W0) (LE _ U0) (LE _ W2)) as (_ & C1).
    destruct (cross_comp u0 w1 u1 w0 (LE _ U0) (LE _ W1) (LE _ U1) (LE _ W0)) as (_ & C2).
    cbv zeta in C0, C1, C2. rewrite V1, V2, Z1, Z2 in C0. rewrite V0, V2, Z0, Z2 in C1. rewrite V0, V1, Z0, Z1 in C2.
    apply K; try assumption.
    - exists d1, d2, g1, g2. cbv zeta. repeat split; assumption.
    - exists d2, d0, g2, g0. cbv zeta. repeat split; assumption.
    - exists d0, d1, g0, g1. cbv zeta. repeat split; assumption. }
  destruct CORE as (CB & CL).
  destruct (normalize3 cfg (fcross3 u w) OK) as (r & m & EM & HM & HU).
  { eapply Rle_trans; [|exact CL]. apply Rle_trans with (/ 2 ^ 400 / 2); [|lra].
    replace (/ 2 ^ 450) with (/ 2 ^ 400 * / 2 ^ 50) by (rewrite <- Rinv_mult, <- pow_add; reflexivity).
    unfold Rdiv. apply Rmult_le_compat_l; [lra|]. replace (2 ^ 50) with 1125899906842624 by (cbn; lra). lra. }
  exists m. rewrite EM in S1, S2, S3, S4, S5. cbn [bind] in S1, S2, S3, S4, S5.
  assert (ES : 0 <= eta <= uro / 100) by (pose proof eta_small; lra).
  pose proof (normal_final uro eta U W (vals (fcross3 u w)) (vals m) U5 ES N0 HL CB ltac:(lra)) as F.
  assert (F' := F). clear F. assert (G : 30 * uro = 30 / 2 ^ 53) by (rewrite UV; replace (2 ^ 53) with 9007199254740992 by (cbn; lra); lra).
  fold N X in F'. rewrite G in F'.
  destruct F' as (F1 & F2 & F3 & F4).
  { clear - HM. pose proof (proj2 (HM 0%nat ltac:(lia))) as H0. pose proof (proj2 (HM 1%nat ltac:(lia))) as H1. pose proof (proj2 (HM 2%nat ltac:(lia))) as H2.
    set (cc := fcross3 u w) in *. clearbody cc. destruct m as [[m0 m1] m2], cc as [[c0 c1] c2]. cbn [vals comp fst snd] in *. repeat split; assumption. }
  repeat (split; [first [assumption | intros k Hk; apply (HM k Hk)]|]). exact F4.
Qed.
Print Assumptions C187_compute_normal_error.
(** The right-angled unit triangle meets the hypotheses, with quotient 1. *)
Definition e0 : f64 * f64 * f64 := (f64_zero, f64_zero, f64_zero).
Definition e1 : f64 * f64 * f64 := (f64_one, f64_zero, f64_zero).
Definition e2 : f64 * f64 * f64 := (f64_zero, f64_one, f64_zero).
Example C187_hypotheses_met :
  (forall p, In p [e0; e1; e2] -> forall k, (k < 3)%nat -> fin (comp k p) /\ Rabs (val (comp k p)) <= 2 ^ 240) /\
  let U := sub3 (vals e1) (vals e0) in let W := sub3 (vals e2) (vals e0) in
  len3R (cross3 U W) = 1 /\ len3R U * len3R W / len3R (cross3 U W) = 1.
Proof.
  assert (V1 : val f64_one = 1) by apply val_one. assert (V0 : val f64_zero = 0) by reflexivity.
  assert (P : 1 <= 2 ^ 240) by (apply pow_R1_Rle; lra). split.
  - intros p Hp k Hk. destruct Hp as [<-|[<-|[<-|[]]]]; destruct k as [|[|[|k]]]; try lia; cbn [e0 e1 e2 comp fst snd]; (split; [reflexivity|]); rewrite ?V1, ?V0, ?Rabs_R0, ?Rabs_R1; lra.
  - cbn [e0 e1 e2 vals sub3 cross3]. rewrite V1, V0. unfold len3R, dot3.
    replace ((1 - 0) * (1 - 0) + (0 - 0) * (0 - 0) + (0 - 0) * (0 - 0)) with 1 by ring.
    replace ((0 - 0) * (0 - 0) + (1 - 0) * (1 - 0) + (0 - 0) * (0 - 0)) with 1 by ring.
    replace (((0 - 0) * (0 - 0) - (0 - 0) * (1 - 0)) * ((0 - 0) * (0 - 0) - (0 - 0) * (1 - 0)) +
      ((0 - 0) * (0 - 0) - (1 - 0) * (0 - 0)) * ((0 - 0) * (0 - 0) - (1 - 0) * (0 - 0)) +
      ((1 - 0) * (1 - 0) - (0 - 0) * (0 - 0)) * ((1 - 0) * (1 - 0) - (0 - 0) * (0 - 0))) with 1 by ring.
    rewrite sqrt_1. split; field.
Qed.

(** C188: degenerate triangles.  With two coincident vertices the result is
    exactly the null vector ... *)
Lemma rnx0 : rnx 0 = Number 0.
Proof. unfold rnx. rewrite rnd_0, Rabs_R0, Rlt_bool_true by apply bpow_gt_0. reflexivity. Qed.
Lemma normalize_null (cfg : Cfg) (x y z : f64) : value x = Number 0 -> value y = Number 0 -> value z = Number 0 ->
  vec_normalize 3 [x; y; z] = Ok (f64_zero, [x; y; z]).
Proof.
  intros X Y Z. unfold vec_normalize.
  assert (E : exists l, vec_length 3 [x; y; z] = Ok l /\ Beqb l f64_zero = true).
  { assert (Hv : repV 3 [x; y; z] (fun k => comp k (x, y, z))) by (split; [reflexivity|]; intros i Hi; destruct i as [|[|[|i]]]; try lia; reflexivity).
    set (s := ssum 3 (fun i => smul (comp i (x, y, z)) (comp i (x, y, z)))).
    assert (V : value s = Number 0).
    { unfold s. cbn [ssum comp fst snd]. cbn [sadd smul szero F64Scalar]. rewrite !value_plus, !value_mult, X, Y, Z. cbn [nmul nadd].
      rewrite Rmult_0_l, rnx0. change (value f64_zero) with (Number 0). cbn [nadd]. rewrite Rplus_0_l, rnx0. cbn [nadd]. rewrite Rplus_0_l, rnx0. cbn [nadd]. rewrite Rplus_0_l, rnx0. reflexivity. }
    exists (b64_sqrt mode_NE s). split.
    - unfold vec_length. rewrite (vec_squared_length_spec 3 _ _ Hv). reflexivity.
    - assert (V2 : value (b64_sqrt mode_NE s) = Number 0).
      { rewrite value_sqrt, V. cbn [nsqrt]. rewrite Rlt_bool_false by lra. rewrite sqrt_0, rnd_0. reflexivity. }
      destruct (b64_sqrt mode_NE s) as [g|g|g p0 H0|g m e H0]; try discriminate V2; [destruct g; reflexivity|].
      exfalso. cbn in V2. injection V2 as V2. revert V2. destruct g; [apply Rlt_not_eq, F2R_lt_0|apply Rgt_not_eq, F2R_gt_0]; reflexivity. }
  destruct E as (l & -> & EQ). cbn [bind]. change (seqb l szero) with (Beqb l f64_zero). rewrite EQ. reflexivity.
Qed.
Lemma same_products (p q r s : f64) : okf 501 p -> okf 501 q -> okf 501 r -> okf 501 s -> val p * val q = val r * val s ->
  value (p *' q -' r *' s) = Number 0.
Proof.
  intros HP HQ HR HS E. destruct (okf_mult 501 501 1002 p q HP HQ eq_refl ltac:(lia)) as ((F1 & _) & _). destruct (okf_mult 501 501 1002 r s HR HS eq_refl ltac:(lia)) as ((F2 & _) & _).
  assert (EV : value (p *' q) = value (r *' s)).
  { rewrite !value_mult. destruct HP as (P & _), HQ as (Q & _), HR as (R' & _), HS as (S' & _). rewrite (value_fin p P), (value_fin q Q), (value_fin r R'), (value_fin s S'). cbn [nmul]. rewrite E. reflexivity. }
  rewrite value_minus, EV, (value_fin _ F2). cbn [negated nadd]. rewrite Rplus_opp_r. apply rnx0.
Qed.
Theorem C188_coincident_vertices :
  forall (cfg : Cfg) (t a b c : f64 * f64 * f64),
  (forall p, In p [a; b; c] -> forall k, (k < 3)%nat -> fin (comp k p) /\ Rabs (val (comp k p)) <= 2 ^ 500) ->
  vals b = vals a \/ vals c = vals a \/ vals b = vals c ->
  exists m, vec_compute_normal (l3 a) (l3 b) (l3 c) = Ok (l3 m) /\
    vec_compute_normal_into (l3 t) (Val (l3 a)) (Val (l3 b)) (Val (l3 c)) = Ok (l3 m) /\
    (forall k, (k < 3)%nat -> fin (comp k m)) /\ vals m = zero3.
Proof.
  intros cfg t a b c HF HD.
  assert (HA := HF a ltac:(cbn; tauto)). assert (HB := HF b ltac:(cbn; tauto)). assert (HC := HF c ltac:(cbn; tauto)). rewrite E500 in *.
  assert (EU := edge 500 a b ltac:(lia) HA HB). assert (EW := edge 500 a c ltac:(lia) HA HC).
  destruct (normal_steps cfg t a b c) as (S1 & S2 & _). cbv zeta in S1, S2. 
  assert (Z : forall k, (k < 3)%nat -> value (comp k (fcross3 (fsub3 b a) (fsub3 c a))) = Number 0).
  { assert (HV : (forall k, (k < 3)%nat -> val (comp k (fsub3 b a)) = 0) \/ (forall k, (k < 3)%nat -> val (comp k (fsub3 c a)) = 0) \/
       (forall k, (k < 3)%nat -> val (comp k (fsub3 b a)) = val (comp k (fsub3 c a)))).
    { destruct HD as [D|[D|D]].
      - left. intros k Hk. destruct (EU k Hk) as (_ & d & _ & ->). rewrite D. destruct (vals a) as [[x y] z]. destruct k as [|[|[|k]]]; try lia; cbn [sub3 comp fst snd]; ring.
      - right. left. intros k Hk. destruct (EW k Hk) as (_ & d & _ & ->). rewrite D. destruct (vals a) as [[x y] z]. destruct k as [|[|[|k]]]; try lia; cbn [sub3 comp fst snd]; ring.
      - right. right. intros k Hk. 
        assert (DK : val (comp k b) = val (comp k c)).
        { clear - D Hk. destruct b as [[b0 b1] b2], c as [[c0 c1] c2]. cbn [vals] in D. injection D as D0 D1 D2. destruct k as [|[|[|k]]]; try lia; assumption. }
        assert (VV : value (comp k (fsub3 b a)) = value (comp k (fsub3 c a))).
        { destruct (HB k Hk) as (FB & _). destruct (HC k Hk) as (FC & _). clear - DK FB FC Hk.
          destruct a as [[a0 a1] a2], b as [[b0 b1] b2], c as [[c0 c1] c2]. destruct k as [|[|[|k]]]; try lia; cbn [fsub3 comp fst snd] in *;
          rewrite !value_minus, (value_fin _ FB), (value_fin _ FC), DK; reflexivity. }
        destruct (EU k Hk) as ((F & _) & _). rewrite (value_fin _ F) in VV. symmetry in VV. apply value_number in VV as (_ & VV). symmetry. exact VV. }
    assert (OU : forall k, (k < 3)%nat -> okf 501 (comp k (fsub3 b a))) by (intros k Hk; apply (EU k Hk)).
    assert (OW : forall k, (k < 3)%nat -> okf 501 (comp k (fsub3 c a))) by (intros k Hk; apply (EW k Hk)).
    clear - HV OU OW. destruct (fsub3 b a) as [[u0 u1] u2], (fsub3 c a) as [[w0 w1] w2].
    pose proof (OU 0%nat ltac:(lia)) as U0. pose proof (OU 1%nat ltac:(lia)) as U1. pose proof (OU 2%nat ltac:(lia)) as U2.
    pose proof (OW 0%nat ltac:(lia)) as W0. pose proof (OW 1%nat ltac:(lia)) as W1. pose proof (OW 2%nat ltac:(lia)) as W2.
    assert (Q : (val u0 = 0 /\ val u1 = 0 /\ val u2 = 0) \/ (val w0 = 0 /\ val w1 = 0 /\ val w2 = 0) \/ (val u0 = val w0 /\ val u1 = val w1 /\ val u2 = val w2)).
    { destruct HV as [V|[V|V]]; [left|right; left|right; right]; (split; [apply (V 0%nat)|split; [apply (V 1%nat)|apply (V 2%nat)]]; lia). }
    cbn [comp fst snd] in *. intros k Hk. destruct k as [|[|[|k]]]; try lia; cbn [fcross3 comp fst snd]; apply same_products; try assumption;
    destruct Q as [(Q0 & Q1 & Q2)|[(Q0 & Q1 & Q2)|(Q0 & Q1 & Q2)]]; rewrite ?Q0, ?Q1, ?Q2; ring. }
  set (m := fcross3 (fsub3 b a) (fsub3 c a)) in *. exists m.
  pose proof (Z 0%nat ltac:(lia)) as Z0. pose proof (Z 1%nat ltac:(lia)) as Z1. pose proof (Z 2%nat ltac:(lia)) as Z2.
  assert (EN : vec_normalize 3 (l3 m) = Ok (f64_zero, l3 m)).
  { destruct m as [[m0 m1] m2]. apply normalize_null; assumption. }
  rewrite EN in S1, S2. cbn [bind] in S1, S2. split; [exact S1|]. split; [exact S2|]. split.
  - intros k Hk. apply (value_number _ _ (Z k Hk)).
  - apply value_number in Z0 as (_ & Z0). apply value_number in Z1 as (_ & Z1). apply value_number in Z2 as (_ & Z2).
    destruct m as [[m0 m1] m2]. cbn [comp fst snd vals] in *. rewrite Z0, Z1, Z2. reflexivity.
Qed.
Print Assumptions C188_coincident_vertices.
Example C188_hypotheses_met :
  (forall p, In p [e0; e1; e1] -> forall k, (k < 3)%nat -> fin (comp k p) /\ Rabs (val (comp k p)) <= 2 ^ 500) /\ vals e1 = vals e1 /\ vals e0 <> vals e1.
Proof.
  assert (V1 : val f64_one = 1) by apply val_one. assert (V0 : val f64_zero = 0) by reflexivity.
  assert (P : 1 <= 2 ^ 500) by (apply pow_R1_Rle; lra). split; [|split; [reflexivity|]].
  - intros p Hp k Hk. destruct Hp as [<-|[<-|[<-|[]]]]; destruct k as [|[|[|k]]]; try lia; cbn [e0 e1 e2 comp fst snd]; (split; [reflexivity|]); rewrite ?V1, ?V0, ?Rabs_R0, ?Rabs_R1; lra.
  - cbn [e0 e1 vals]. rewrite V1, V0. intros E. injection E as E. lra.
Qed.

(** ... but three different points of one line can give a unit vector: the
    rounding of the edges is all the code sees. *)
Definition p0 : f64 * f64 * f64 := (b64_of_bits 0x3CA0000000000000, b64_of_bits 0x3CB8000000000000, f64_zero).
Definition p1 : f64 * f64 * f64 := (f64_one, b64_of_bits 0x4008000000000000, f64_zero).
Definition p2 : f64 * f64 * f64 := (b64_of_bits 0xBFF0000000000000, b64_of_bits 0xC008000000000000, f64_zero).
Lemma same_bits (r : res (list f64)) (l : list f64) : match r with Ok x => Some (map bits_of_b64 x) | _ => None end = Some (map bits_of_b64 l) -> r = Ok l.
Proof.
  destruct r as [x| | |]; try discriminate. intros E. injection E as E. f_equal. revert x E. induction l as [|b l IH]; intros [|a x] E; try discriminate E; [reflexivity|].
  cbn [map] in E. injection E as E1 E2. apply bits_inj in E1. rewrite E1, (IH x E2). reflexivity.
Qed.
Theorem C188_collinear_vertices_refuted :
  (forall p, In p [p0; p1; p2] -> exists x, vals p = (x, 3 * x, 0) /\ Rabs x <= 1) /\
  vals p0 <> vals p1 /\ vals p0 <> vals p2 /\ vals p1 <> vals p2 /\
  forall cfg : Cfg, exists m, vec_compute_normal (l3 p0) (l3 p1) (l3 p2) = Ok (l3 m) /\ vals m = (0, 0, -1).
Proof.
  assert (V1 : val f64_one = 1) by apply val_one. assert (V0 : val f64_zero = 0) by reflexivity.
  assert (A0 : val (b64_of_bits 0x3CA0000000000000) = / 2 ^ 53).
  { unfold val. vm_compute (b64_of_bits _). cbn [B2R cond_Zopp]. unfold F2R. cbn -[IZR pow]. replace (2 ^ 53) with 9007199254740992 by (cbn; lra). lra. }
  assert (A1 : val (b64_of_bits 0x3CB8000000000000) = 3 * / 2 ^ 53).
  { unfold val. vm_compute (b64_of_bits _). cbn [B2R cond_Zopp]. unfold F2R. cbn -[IZR pow]. replace (2 ^ 53) with 9007199254740992 by (cbn; lra). lra. }
  assert (A2 : val (b64_of_bits 0x4008000000000000) = 3).
  { unfold val. vm_compute (b64_of_bits _). cbn [B2R cond_Zopp]. unfold F2R. cbn -[IZR]. lra. }
  assert (A3 : val (b64_of_bits 0xBFF0000000000000) = -1).
  { unfold val. vm_compute (b64_of_bits _). cbn [B2R cond_Zopp]. unfold F2R. cbn -[IZR]. lra. }
  assert (A4 : val (b64_of_bits 0xC008000000000000) = -3).
  { unfold val. vm_compute (b64_of_bits _). cbn [B2R cond_Zopp]. unfold F2R. cbn -[IZR]. lra. }
  assert (P : 0 < / 2 ^ 53 < 1) by (replace (2 ^ 53) with 9007199254740992 by (cbn; lra); lra).
  split; [|split; [|split; [|split]]].
  - intros p Hp. destruct Hp as [<-|[<-|[<-|[]]]]; cbn [p0 p1 p2 vals]; rewrite ?A0, ?A1, ?A2, ?A3, ?A4, ?V1, ?V0.
    + exists (/ 2 ^ 53). split; [reflexivity|]. rewrite Rabs_pos_eq; lra.
    + exists 1. split; [f_equal; f_equal; ring|]. rewrite Rabs_R1. lra.
    + exists (-1). split; [f_equal; f_equal; ring|]. rewrite Rabs_left; lra.
  - cbn [p0 p1 vals]. rewrite A0, V1. intros E. injection E as E _. lra.
  - cbn [p0 p2 vals]. rewrite A0, A3. intros E. injection E as E _. lra.
  - cbn [p1 p2 vals]. rewrite V1, A3. intros E. injection E as E _. lra.
  - intros cfg. exists (f64_zero, f64_neg_zero, b64_of_bits 0xBFF0000000000000). split.
    + apply same_bits. destruct cfg as [[|]]; vm_compute; reflexivity.
    + cbn [vals]. rewrite V0, A3. reflexivity.
Qed.
Print Assumptions C188_collinear_vertices_refuted.
