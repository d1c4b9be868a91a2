(** Property C207: compute_plane in double precision. *)
From Coq Require Import ZArith Reals Lra Psatz List.
From Flocq Require Import Core.Core IEEE754.BinarySingleNaN IEEE754.Binary IEEE754.Bits.
From Verif Require Import InstF MVector MFrustum LVector LMatrix LVector2 Spec LSum LVectorR LVecProps2 PFloat LFloat PFloat2 LErr Spec10 LExt PCuller3 PFloat3 PFloat4 PFrustumF PFloat5 PAabb PRayF LNormal PNormal PQuantF LPlane.
Import ListNotations.
Local Open Scope R_scope.
Local Open Scope list_scope.
Local Existing Instance F64Scalar.
Local Notation bp := (bpow radix2).
Local Notation "a -' b" := (b64_minus mode_NE a b) (at level 50, left associativity).
Local Notation "a *' b" := (b64_mult mode_NE a b) (at level 40, left associativity).

(** normalize() of (d, 1). *)
Lemma normalize_h (cfg : Cfg) (d : f64 * f64 * f64) :
  (forall k, (k < 3)%nat -> fin (comp k d) /\ Rabs (val (comp k d)) <= 2 ^ 500) ->
  exists r m x, vec_normalize 4 (l3 d ++ [f64_one]) = Ok (r, l3 m ++ [x]) /\
  forall k, (k < 3)%nat -> fin (comp k m) /\ Rabs (val (comp k m) - val (comp k d) / hlen (vals d)) <= 14 * uro * Rabs (val (comp k d) / hlen (vals d)) + eta.
Proof.
  intros HF. set (g0 := fun k => match k with 3%nat => f64_one | _ => comp k d end).
  assert (Hd : repV 4 (l3 d ++ [f64_one]) g0).
  { destruct d as [[x y] z]. split; [reflexivity|]. intros i Hi. destruct i as [|[|[|[|i]]]]; try lia; reflexivity. }
  assert (EL : lenR 4 (fun k => val (g0 k)) = hlen (vals d)).
  { destruct d as [[x y] z]. unfold lenR, dotR, hlen, vals, dot3, g0. cbn [rsum comp fst snd]. rewrite val_one. f_equal. ring. }
  destruct (hlen_facts (vals d)) as (H1 & _ & _).
  destruct (C116_normalize_error cfg 4 (l3 d ++ [f64_one]) g0 Hd ltac:(cbn; lia)) as (n & v' & g & E & _ & (L & N) & G & U).
  { intros k Hk. destruct k as [|[|[|[|k]]]]; try lia; cbn [g0]; try (apply HF; lia). split; [reflexivity|]. rewrite val_one, Rabs_R1. apply pow_R1_Rle. lra. }
  { rewrite EL. apply Rle_trans with 1; [|exact H1]. rewrite <- Rinv_1. apply Rinv_le_contravar; [lra|apply pow_R1_Rle; lra]. }
  rewrite EL in G. exists n, (g 0%nat, g 1%nat, g 2%nat), (g 3%nat).
  assert (EV : v' = [g 0%nat; g 1%nat; g 2%nat; g 3%nat]).
  { pose proof (N 0%nat ltac:(lia)). pose proof (N 1%nat ltac:(lia)). pose proof (N 2%nat ltac:(lia)). pose proof (N 3%nat ltac:(lia)).
    destruct v' as [|a [|b [|c [|e [|]]]]]; try discriminate L. cbn in *. congruence. }
  split; [rewrite E, EV; reflexivity|].
  intros k Hk. assert (comp k (g 0%nat, g 1%nat, g 2%nat) = g k) as -> by (destruct k as [|[|[|k]]]; try lia; reflexivity).
  destruct (G k ltac:(lia)) as (F & B). split; [exact F|]. replace (g0 k) with (comp k d) in B by (destruct k as [|[|[|k]]]; try lia; reflexivity).
  eapply Rle_trans; [exact B|]. apply Req_le. change (/ 2 ^ 1075) with eta. rewrite uro_val. cbn [INR]. replace (2 ^ 52) with 4503599627370496 by (cbn; lra). lra.
Qed.
Definition fplane_w (m a : f64 * f64 * f64) : f64 :=
  let '(x, y, z) := m in let '(a0, a1, a2) := a in b64_opp x *' a0 -' y *' a1 -' z *' a2.
Lemma plane_steps (cfg : Cfg) (a b c : f64 * f64 * f64) :
  vec_compute_plane (l3 a) (l3 b) (l3 c) = ('(_, v) <- vec_normalize 4 (l3 (fcross3 (fsub3 b c) (fsub3 a b)) ++ [f64_one]) ;;
    px <- rd v 0 ;; py <- rd v 1 ;; pz <- rd v 2 ;;
    ax <- rd (l3 a) 0 ;; ay <- rd (l3 a) 1 ;; az <- rd (l3 a) 2 ;;
    wr v 3 (ssub (ssub (smul (sopp px) ax) (smul py ay)) (smul pz az))).
Proof. destruct a as [[a0 a1] a2], b as [[b0 b1] b2], c as [[c0 c1] c2]. reflexivity. Qed.

(** C207: for points with coordinates up to 2^240, U = b - c, W = a - b, the
    exact normal N = U x W and the length H of (N, 1): the normal m of the plane
    is N / H within 32 half-ulps of |U||W| / H, the plane equation m.p + w
    vanishes at each of the three points up to the rounding of m and of w, and
    m is on the side of N unless the triangle is thin beyond the precision. *)
Theorem C207_compute_plane_error :
  forall (cfg : Cfg) (a b c : f64 * f64 * f64),
  (forall k, (k < 3)%nat -> fin (comp k a) /\ Rabs (val (comp k a)) <= 2 ^ 240) ->
  (forall k, (k < 3)%nat -> fin (comp k b) /\ Rabs (val (comp k b)) <= 2 ^ 240) ->
  (forall k, (k < 3)%nat -> fin (comp k c) /\ Rabs (val (comp k c)) <= 2 ^ 240) ->
  let U := sub3 (vals b) (vals c) in let W := sub3 (vals a) (vals b) in let N := cross3 U W in let H := sqrt (dot3 N N + 1) in
  let e := 32 / 2 ^ 53 * (len3R U * len3R W / H) + 13 / 2 ^ 1075 in
  exists (m : f64 * f64 * f64) (w : f64), vec_compute_plane (l3 a) (l3 b) (l3 c) = Ok (l3 m ++ [w]) /\
    (forall k, (k < 3)%nat -> fin (comp k m)) /\ fin w /\
    len3R (sub3 (vals m) (scale3 (/ H) N)) <= e /\
    (forall p, In p [a; b; c] -> Rabs (dot3 (vals m) (vals p) + val w) <= e * len3R (sub3 (vals p) (vals a)) + 4 / 2 ^ 53 * (len3R (vals m) * len3R (vals a)) + 4 / 2 ^ 1075) /\
    (e * H < len3R N -> 0 < dot3 (vals m) N).
Proof.
  intros cfg a b c HA HB HC U W N H e.
  assert (E240 : 2 ^ 240 = bp 240) by exact (eq_sym (bpow_pow 240)).
  assert (UV := uro_val). assert (U5 : 0 < uro <= / 100000) by (rewrite UV; lra). assert (ES : 0 <= eta <= uro / 100) by (pose proof eta_small; pose proof eta_pos; lra).
  assert (Eu : forall k, k / 2 ^ 53 = k * uro) by (intros k; unfold uro; reflexivity). assert (Ee : forall k, k / 2 ^ 1075 = k * eta) by (intros k; unfold eta; reflexivity).
  assert (EU := edge 240 c b ltac:(lia) ltac:(rewrite <- E240; exact HC) ltac:(rewrite <- E240; exact HB)).
  assert (EW := edge 240 b a ltac:(lia) ltac:(rewrite <- E240; exact HB) ltac:(rewrite <- E240; exact HA)).
  pose proof (plane_steps cfg a b c) as ST.
  fold U in EU. fold W in EW. set (u := fsub3 b c) in *. set (x := fsub3 a b) in *.
  assert (OK : forall k, (k < 3)%nat -> fin (comp k (fcross3 u x)) /\ Rabs (val (comp k (fcross3 u x))) <= 2 ^ 500).
  { assert (O : forall p q r s, okf 241 p -> okf 241 q -> okf 241 r -> okf 241 s -> fin (p *' q -' r *' s) /\ Rabs (val (p *' q -' r *' s)) <= 2 ^ 500).
    { intros p q r s HP HQ HR HS. destruct (okf_mult 241 241 482 p q HP HQ eq_refl ltac:(lia)) as (O1 & _). destruct (okf_mult 241 241 482 r s HR HS eq_refl ltac:(lia)) as (O2 & _).
      destruct (okf_minus 482 483 _ _ O1 O2 eq_refl ltac:(lia)) as ((F & B) & _). split; [exact F|]. rewrite E500. eapply Rle_trans; [exact B|]. apply bpow_le. lia. }
    destruct (EU 0%nat ltac:(lia)) as (U0 & _). destruct (EU 1%nat ltac:(lia)) as (U1 & _). destruct (EU 2%nat ltac:(lia)) as (U2 & _).
    destruct (EW 0%nat ltac:(lia)) as (W0 & _). destruct (EW 1%nat ltac:(lia)) as (W1 & _). destruct (EW 2%nat ltac:(lia)) as (W2 & _).
    clearbody u x. destruct u as [[u0 u1] u2], x as [[w0 w1] w2]. cbn [comp fst snd] in *.
    intros k Hk. destruct k as [|[|[|k]]]; try lia; cbn [fcross3 comp fst snd]; apply O; assumption. }
  assert (CB : len3R (sub3 (vals (fcross3 u x)) N) <= 88 / 10 * uro * (len3R U * len3R W) + 53 / 10 * eta).
  { destruct (EU 0%nat ltac:(lia)) as (U0 & d0 & D0 & V0). destruct (EU 1%nat ltac:(lia)) as (U1 & d1 & D1 & V1). destruct (EU 2%nat ltac:(lia)) as (U2 & d2 & D2 & V2).
    destruct (EW 0%nat ltac:(lia)) as (W0 & g0 & G0 & Z0). destruct (EW 1%nat ltac:(lia)) as (W1 & g1 & G1 & Z1). destruct (EW 2%nat ltac:(lia)) as (W2 & g2 & G2 & Z2).
    pose proof (cross_core uro eta U W (vals (fcross3 u x)) U5 (proj1 ES)) as K.
    clearbody u x. clear ST EU EW e H. unfold N in *. clear N. clearbody U W.
    destruct u as [[u0 u1] u2], x as [[w0 w1] w2], U as [[X0 X1] X2], W as [[Y0 Y1] Y2]. cbn [fcross3 vals] in K. cbn [comp fst snd] in *.
    pose proof (fun x O => okf_le 241 500 x O ltac:(lia)) as LE.
    destruct (cross_comp u1 w2 u2 w1 (LE _ U1) (LE _ W2) (LE _ U2) (LE _ W1)) as (_ & C0).
    destruct (cross_comp u2 w0 u0 w2 (LE _ U2) (LE _ W0) (LE _ U0) (LE _ W2)) as (_ & C1).
    destruct (cross_comp u0 w1 u1 w0 (LE _ U0) (LE _ W1) (LE _ U1) (LE _ W0)) as (_ & C2).
    cbv zeta in C0, C1, C2. rewrite V1, V2, Z1, Z2 in C0. rewrite V0, V2, Z0, Z2 in C1. rewrite V0, V1, Z0, Z1 in C2.
    apply K.
    - exists d1, d2, g1, g2. cbv zeta. repeat split; assumption.
    - exists d2, d0, g2, g0. cbv zeta. repeat split; assumption.
    - exists d0, d1, g0, g1. cbv zeta. repeat split; assumption. }
  destruct (normalize_h cfg (fcross3 u x) OK) as (r & m & z & EM & HM). rewrite EM in ST. cbn [bind] in ST. clear EM OK EU EW.
  set (C := vals (fcross3 u x)) in *.
  assert (D : len3R (sub3 (vals m) (scale3 (/ H) N)) <= e).
  { unfold e. rewrite Eu, Ee. apply (plane_normal uro eta U W C (vals m) U5 ltac:(lra) CB).
    clear - HM. pose proof (proj2 (HM 0%nat ltac:(lia))) as H0. pose proof (proj2 (HM 1%nat ltac:(lia))) as H1. pose proof (proj2 (HM 2%nat ltac:(lia))) as H2.
    unfold C in *. set (cc := fcross3 u x) in *. clearbody cc. destruct m as [[m0 m1] m2], cc as [[c0 c1] c2]. cbn [vals comp fst snd] in *. exact (conj H0 (conj H1 H2)). }
  assert (OM : forall k, (k < 3)%nat -> okf 1 (comp k m)).
  { intros k Hk. destruct (HM k Hk) as (F & B). split; [exact F|]. change (bp 1) with 2. destruct (hlen_facts C) as (H1 & H2 & _).
    assert (Q : Rabs (val (comp k (fcross3 u x)) / hlen C) <= 1).
    { unfold Rdiv. rewrite Rabs_mult, (Rabs_pos_eq (/ hlen C)) by (left; apply Rinv_0_lt_compat; lra). apply (Rmult_le_reg_r (hlen C)); [lra|]. rewrite Rmult_assoc, Rinv_l, Rmult_1_r, Rmult_1_l by lra.
      eapply Rle_trans; [|exact H2]. unfold C. set (cc := fcross3 u x). clearbody cc. destruct cc as [[c0 c1] c2]. pose proof (len_drop (val c0) (val c1) (val c2)) as LD.
      rewrite <- sqrt_Rsqr_abs. unfold len3R, vals. apply sqrt_le_1_alt. unfold Rsqr. cbn [dot3]. pose proof (Rle_0_sqr (val c0)) as Q0. pose proof (Rle_0_sqr (val c1)) as Q1. pose proof (Rle_0_sqr (val c2)) as Q2. unfold Rsqr in *.
      destruct k as [|[|[|k]]]; try lia; cbn [comp fst snd]; lra. }
    assert (14 * uro * Rabs (val (comp k (fcross3 u x)) / hlen C) <= 14 * uro * 1) by (apply Rmult_le_compat_l; lra).
    apply abs_inv in Q. apply abs_inv in B. apply Rabs_le. lra. }
  assert (OA : forall k, (k < 3)%nat -> okf 240 (comp k a)) by (intros k Hk; rewrite E240 in HA; apply HA; exact Hk).
  exists m, (fplane_w m a). split; [rewrite ST; destruct m as [[m0 m1] m2], a as [[a0 a1] a2]; reflexivity|]. split; [intros k Hk; apply (OM k Hk)|].
  assert (WW : fin (fplane_w m a) /\ Rabs (dot3 (vals m) (vals a) + val (fplane_w m a)) <= 4 * uro * (len3R (vals m) * len3R (vals a)) + 4 * eta).
  { pose proof (OM 0%nat ltac:(lia)) as M0. pose proof (OM 1%nat ltac:(lia)) as M1. pose proof (OM 2%nat ltac:(lia)) as M2.
    pose proof (OA 0%nat ltac:(lia)) as A0. pose proof (OA 1%nat ltac:(lia)) as A1. pose proof (OA 2%nat ltac:(lia)) as A2.
    clear - M0 M1 M2 A0 A1 A2 U5 ES. destruct m as [[m0 m1] m2], a as [[a0 a1] a2]. cbn [comp fst snd fplane_w] in *.
    assert (MO : okf 1 (b64_opp m0) /\ val (b64_opp m0) = - val m0).
    { assert (V : val (b64_opp m0) = - val m0) by (unfold val, b64_opp; apply B2R_Bopp). split; [|exact V]. split; [unfold fin, b64_opp; rewrite is_finite_Bopp; apply M0|]. rewrite V, Rabs_Ropp. apply M0. }
    destruct MO as (MO & VO).
    destruct (mult_E 1 240 _ _ MO A0 ltac:(lia)) as (K0 & _ & P0). destruct (mult_E 1 240 _ _ M1 A1 ltac:(lia)) as (K1 & _ & P1). destruct (mult_E 1 240 _ _ M2 A2 ltac:(lia)) as (K2 & _ & P2).
    change (1 + 240)%Z with 241%Z in *. rewrite VO in P0.
    destruct (minus_E 241 _ _ K0 K1 ltac:(lia)) as (K3 & _ & P3). change (241 + 1)%Z with 242%Z in K3.
    destruct (minus_E 242 _ _ K3 (okf_le 241 242 _ K2 ltac:(lia)) ltac:(lia)) as (K4 & _ & P4). split; [apply K4|].
    exact (plane_w uro eta (val m0, val m1, val m2) (val a0, val a1, val a2) _ _ _ _ _ U5 (proj1 ES) P0 P1 P2 P3 P4). }
  destruct WW as (FW & EWW). split; [exact FW|]. split; [exact D|]. split.
  - intros p Hp. rewrite Eu, Ee. rewrite Rplus_assoc. apply (plane_value e _ (/ H) (val (fplane_w m a)) N (vals m) (vals a) (vals p)); [|exact D|exact EWW].
    unfold N, U, W. clear - Hp. destruct Hp as [<-|[<-|[<-|[]]]]; destruct a as [[a0 a1] a2], b as [[b0 b1] b2], c as [[c0 c1] c2]; cbn [vals sub3 cross3 dot3]; ring.
  - intros HN. destruct (hlen_facts N) as (H1 & H2 & _). change (hlen N) with H in H1, H2. pose proof (len3_nonneg N) as N0.
    assert (e0 : 0 <= e) by (eapply Rle_trans; [apply len3_nonneg|exact D]). assert (N1 : 0 < len3R N) by (eapply Rle_lt_trans; [|exact HN]; apply Rmult_le_pos; lra).
    assert (E : dot3 (vals m) N = / H * (len3R N * len3R N) + dot3 (sub3 (vals m) (scale3 (/ H) N)) N) by (rewrite len3_sq; set (k := / H); destruct (vals m) as [[p q] t], N as [[x0 y0] z0]; cbn; ring).
    pose proof (len3_cs (sub3 (vals m) (scale3 (/ H) N)) N) as CS. assert (B : Rabs (dot3 (sub3 (vals m) (scale3 (/ H) N)) N) <= e * len3R N) by (eapply Rle_trans; [exact CS|]; apply Rmult_le_compat_r; lra).
    apply abs_inv in B. rewrite E. assert (e * len3R N < / H * (len3R N * len3R N)); [|lra]. rewrite <- Rmult_assoc. apply Rmult_lt_compat_r; [exact N1|].
    apply (Rmult_lt_reg_r H); [lra|]. rewrite (Rmult_comm (/ H)), Rmult_assoc, Rinv_l, Rmult_1_r by lra. exact HN.
Qed.
Print Assumptions C207_compute_plane_error.
(** C207: FrustumCuller::setup with the eight corners a (left top near), b (right
    top near), c (left bottom near), d (right bottom near) and e, f, g, h (the
    same on the far side): each stored plane passes through three corners of its
    side, in the sense of C207_compute_plane_error. *)
Definition through (a b c : f64 * f64 * f64) (pl : list f64) : Prop :=
  let N := cross3 (sub3 (vals b) (vals c)) (sub3 (vals a) (vals b)) in let H := sqrt (dot3 N N + 1) in
  let e := 32 / 2 ^ 53 * (len3R (sub3 (vals b) (vals c)) * len3R (sub3 (vals a) (vals b)) / H) + 13 / 2 ^ 1075 in
  exists (m : f64 * f64 * f64) (w : f64), pl = l3 m ++ [w] /\ (forall k, (k < 3)%nat -> fin (comp k m)) /\ fin w /\
  len3R (sub3 (vals m) (scale3 (/ H) N)) <= e /\
  forall p, In p [a; b; c] -> Rabs (dot3 (vals m) (vals p) + val w) <= e * len3R (sub3 (vals p) (vals a)) + 4 / 2 ^ 53 * (len3R (vals m) * len3R (vals a)) + 4 / 2 ^ 1075.
Theorem C207_culler_planes :
  forall (cfg : Cfg) (a b c d e f g h : f64 * f64 * f64),
  (forall p, In p [a; b; c; d; e; f; g; h] -> forall k, (k < 3)%nat -> fin (comp k p) /\ Rabs (val (comp k p)) <= 2 ^ 240) ->
  exists left right bottom top near far,
  fc_setup_corners (l3 a) (l3 b) (l3 c) (l3 d) (l3 e) (l3 f) (l3 g) (l3 h) = Ok (left, right, bottom, top, near, far) /\
  through c a e left /\ through f b d right /\ through h d c bottom /\ through a b f top /\ through b a c near /\ through g e f far.
Proof.
  intros cfg a b c d e f g h HB.
  assert (K : forall x y z, In x [a; b; c; d; e; f; g; h] -> In y [a; b; c; d; e; f; g; h] -> In z [a; b; c; d; e; f; g; h] ->
    exists pl, vec_compute_plane (l3 x) (l3 y) (l3 z) = Ok pl /\ through x y z pl).
  { intros x y z Hx Hy Hz. destruct (C207_compute_plane_error cfg x y z (HB x Hx) (HB y Hy) (HB z Hz)) as (m & w & E & F & Fw & D & V & _).
    exists (l3 m ++ [w]). split; [exact E|]. exists m, w. exact (conj eq_refl (conj F (conj Fw (conj D V)))). }
  destruct (K c a e) as (left & E1 & T1); [cbn; tauto..|]. destruct (K f b d) as (right & E2 & T2); [cbn; tauto..|]. destruct (K h d c) as (bottom & E3 & T3); [cbn; tauto..|].
  destruct (K a b f) as (top & E4 & T4); [cbn; tauto..|]. destruct (K b a c) as (near & E5 & T5); [cbn; tauto..|]. destruct (K g e f) as (far & E6 & T6); [cbn; tauto..|].
  exists left, right, bottom, top, near, far. split; [|exact (conj T1 (conj T2 (conj T3 (conj T4 (conj T5 T6)))))].
  unfold fc_setup_corners. rewrite E1, E2, E3, E4, E5, E6. reflexivity.
Qed.
Print Assumptions C207_culler_planes.
(** The right-angled unit triangle, with e H < |N| = 1. *)
Example C207_hypotheses_met :
  (forall p, In p [e0; e1; e2] -> forall k, (k < 3)%nat -> fin (comp k p) /\ Rabs (val (comp k p)) <= 2 ^ 240) /\
  let U := sub3 (vals e1) (vals e2) in let W := sub3 (vals e0) (vals e1) in let N := cross3 U W in let H := sqrt (dot3 N N + 1) in
  len3R N = 1 /\ (32 / 2 ^ 53 * (len3R U * len3R W / H) + 13 / 2 ^ 1075) * H < len3R N.
Proof.
  split; [apply (proj1 C187_hypotheses_met)|]. assert (V1 : val f64_one = 1) by apply val_one. assert (V0 : val f64_zero = 0) by reflexivity.
  cbn [e0 e1 e2 vals sub3 cross3]. rewrite V1, V0. unfold len3R, dot3. cbv zeta.
  match goal with |- sqrt ?x = 1 /\ _ => replace x with 1 by ring end. rewrite sqrt_1. split; [reflexivity|].
  replace ((1 - 0) * (1 - 0) + (0 - 1) * (0 - 1) + (0 - 0) * (0 - 0)) with 2 by ring. replace ((0 - 1) * (0 - 1) + (0 - 0) * (0 - 0) + (0 - 0) * (0 - 0)) with 1 by ring. rewrite sqrt_1.
  match goal with |- context [sqrt (?x + 1)] => replace (x + 1) with 2 by ring end.
  assert (S1 : 0 < sqrt 2 <= 2) by (split; [apply sqrt_lt_R0; lra|]; rewrite <- (sqrt_square 2) at 2 by lra; apply sqrt_le_1_alt; lra).
  assert (E : (32 / 2 ^ 53 * (sqrt 2 * 1 / sqrt 2) + 13 / 2 ^ 1075) * sqrt 2 = (32 / 2 ^ 53 + 13 / 2 ^ 1075) * sqrt 2) by (field; repeat split; try (apply pow_nonzero; lra); lra). rewrite E.
  assert (ET : / 2 ^ 1075 <= / 1000) by (apply Rinv_le_contravar; [lra|]; apply Rle_trans with (2 ^ 10); [lra|apply Rle_pow; [lra|lia]]). assert (EP : 0 < / 2 ^ 1075) by (apply Rinv_0_lt_compat, pow_lt; lra).
  assert (EQ : 32 / 2 ^ 53 <= / 1000) by (replace (2 ^ 53) with 9007199254740992 by (cbn; lra); lra). assert (EQ0 : 0 < 32 / 2 ^ 53) by (apply Rdiv_lt_0_compat; [lra|apply pow_lt; lra]).
  unfold Rdiv at 2. apply Rle_lt_trans with ((/ 1000 + 13 * / 1000) * 2); [|lra]. apply Rmult_le_compat; lra.
Qed.
