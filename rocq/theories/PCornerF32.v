(** Property C217: culling with planes through corners, in float. *)
From Coq Require Import ZArith Reals Lra Psatz List.
From Flocq Require Import Core.Core IEEE754.BinarySingleNaN IEEE754.Binary IEEE754.Bits.
From Verif Require Import InstF InstF32 MVector MFrustum MFloat MCullF LVector LMatrix LVector2 Spec Spec4 Spec15 LSum LVectorR LVecProps2 PF32 LF32 PF32b LExprF PCullF Spec10f LExt32 PF32c PF32d PFrustumF32 PDistF32 PAabb PRayF32 LNormal PNormal32 PQuantF32 LPlane MPlaneF PPlaneF32.
From Verif Require PCullF2.
Import ListNotations.
Local Open Scope R_scope.
Local Open Scope list_scope.
Local Existing Instance F32Scalar.
Local Notation bp := (bpow radix2).

(** ** Reals *)
Lemma face_lip (f : cface) (p q : V3) : Rabs (face_val f p - face_val f q) <= dist3 p q.
Proof.
  unfold face_val, fheight. destruct (hlen_facts (fnormal f)) as (H1 & H2 & _). unfold hlen in *. set (N := fnormal f) in *. set (H := sqrt (dot3 N N + 1)) in *.
  replace (dot3 N (sub3 p (fbase f)) / H - dot3 N (sub3 q (fbase f)) / H) with (dot3 N (sub3 p q) * / H).
  - rewrite Rabs_mult, (Rabs_pos_eq (/ H)) by (left; apply Rinv_0_lt_compat; lra).
    apply (Rmult_le_reg_r H); [lra|]. rewrite Rmult_assoc, Rinv_l by lra. rewrite Rmult_1_r.
    eapply Rle_trans; [apply len3_cs|]. rewrite Rmult_comm. unfold dist3. apply Rmult_le_compat_l; [apply len3_nonneg|exact H2].
  - destruct N as [[a b] c], p as [[x y] z], q as [[x' y'] z'], (fbase f) as [[k l] m]. cbn [dot3 sub3]. field. lra.
Qed.
Definition fit (u t : R) (f : cface) (M : V3) (w : R) : Prop :=
  len3R (sub3 M (scale3 (/ fheight f) (fnormal f))) <= ferr u t f /\ Rabs (dot3 M (fbase f) + w) <= 4 * u * (len3R M * len3R (fbase f)) + 4 * t.
Section Fit.
Context (u t : R) (Hu : 0 < u <= / 100000) (Ht : 0 <= t) (f : cface) (M : V3) (w : R) (HF : fit u t f M w).
Lemma ferr_nn : 0 <= ferr u t f. Proof. eapply Rle_trans; [apply len3_nonneg|exact (proj1 HF)]. Qed.
Lemma fit_len : len3R M <= 1 + ferr u t f.
Proof.
  destruct HF as (H1 & _). pose proof (len_sub_ge M (scale3 (/ fheight f) (fnormal f))) as G. rewrite len3_scale in G.
  destruct (hlen_facts (fnormal f)) as (P1 & P2 & _). unfold hlen in *. fold (fheight f) in P1, P2.
  assert (Rabs (/ fheight f) * len3R (fnormal f) <= 1).
  { rewrite Rabs_pos_eq by (left; apply Rinv_0_lt_compat; lra). apply (Rmult_le_reg_l (fheight f)); [lra|]. rewrite <- Rmult_assoc, Rinv_r by lra. lra. }
  lra.
Qed.
Lemma fit_w : Rabs w <= 1001 / 1000 * (1 + ferr u t f) * len3R (fbase f) + 4 * t.
Proof.
  destruct HF as (_ & H2). pose proof (len3_cs M (fbase f)) as C. pose proof fit_len as FL. pose proof ferr_nn as EN. pose proof (len3_nonneg (fbase f)) as BN. pose proof (len3_nonneg M) as MN.
  assert (ML : len3R M * len3R (fbase f) <= (1 + ferr u t f) * len3R (fbase f)) by (apply Rmult_le_compat_r; assumption).
  assert (P0 : 0 <= len3R M * len3R (fbase f)) by (apply Rmult_le_pos; assumption).
  replace w with (- dot3 M (fbase f) + (dot3 M (fbase f) + w)) by ring. eapply Rle_trans; [apply Rabs_triang|]. rewrite Rabs_Ropp.
  assert (4 * u * (len3R M * len3R (fbase f)) <= / 1000 * (len3R M * len3R (fbase f))) by (apply Rmult_le_compat_r; lra). lra.
Qed.
Lemma fit_val q : Rabs (dot3 M q + w - face_val f q) <= ferr u t f * len3R (sub3 q (fbase f)) + 4 * u * ((1 + ferr u t f) * len3R (fbase f)) + 4 * t.
Proof.
  destruct HF as (H1 & H2). destruct (hlen_facts (fnormal f)) as (P1 & P2 & _). unfold hlen in *. fold (fheight f) in P1, P2.
  replace (dot3 M q + w - face_val f q) with (dot3 (sub3 M (scale3 (/ fheight f) (fnormal f))) (sub3 q (fbase f)) + (dot3 M (fbase f) + w)).
  - assert (4 * u * (len3R M * len3R (fbase f)) <= 4 * u * ((1 + ferr u t f) * len3R (fbase f))).
    { apply Rmult_le_compat_l; [lra|]. apply Rmult_le_compat_r; [apply len3_nonneg|apply fit_len]. }
    assert (X : Rabs (dot3 (sub3 M (scale3 (/ fheight f) (fnormal f))) (sub3 q (fbase f))) <= ferr u t f * len3R (sub3 q (fbase f)))
      by (eapply Rle_trans; [apply len3_cs|]; apply Rmult_le_compat_r; [apply len3_nonneg|exact H1]).
    eapply Rle_trans; [apply Rabs_triang|]. lra.
  - unfold face_val. generalize (fnormal f) (fheight f) P1 (fbase f). intros [[n0 n1] n2] H HP [[b0 b1] b2]. destruct M as [[x y] z], q as [[q0 q1] q2]. cbn [dot3 sub3 scale3]. field. lra.
Qed.
(** The terms of n . r + w. *)
Lemma fit_terms r : termsR (M, w) r <= (1 + ferr u t f) * (len3R r + 1001 / 1000 * len3R (fbase f)) + 4 * t.
Proof.
  pose proof (abs_dot M r) as A. pose proof fit_w as W. pose proof fit_len as FL.
  assert (len3R M * len3R r <= (1 + ferr u t f) * len3R r) by (apply Rmult_le_compat_r; [apply len3_nonneg|exact FL]).
  destruct M as [[x y] z], r as [[r0 r1] r2]. cbn [termsR]. lra.
Qed.
Lemma fit_l1 : Rabs (fst (fst M)) + Rabs (snd (fst M)) + Rabs (snd M) <= 3 * (1 + ferr u t f).
Proof.
  pose proof fit_len as FL. assert (C : forall x y z, Rabs x <= len3R (x, y, z) /\ Rabs y <= len3R (x, y, z) /\ Rabs z <= len3R (x, y, z)).
  { intros x y z. unfold len3R, dot3. pose proof (Rle_0_sqr x) as X. pose proof (Rle_0_sqr y) as Y. pose proof (Rle_0_sqr z) as Z. unfold Rsqr in *.
    rewrite <- !sqrt_Rsqr_abs. unfold Rsqr. repeat split; apply sqrt_le_1_alt; lra. }
  destruct M as [[x y] z]. destruct (C x y z) as (Cx & Cy & Cz). cbn [fst snd]. lra.
Qed.
End Fit.

(** ** The computed planes *)
Definition vface (f : (f32 * f32 * f32) * (f32 * f32 * f32) * (f32 * f32 * f32)) : cface := let '(a, b, c) := f in (vals a, vals b, vals c).
Definition dface : Type := ((f32 * f32 * f32) * (f32 * f32 * f32) * (f32 * f32 * f32))%type.
Definition near_corner (p : f32 * f32 * f32) : Prop := forall k, (k < 3)%nat -> fin (comp k p) /\ Rabs (val (comp k p)) <= 2 ^ 20.
Lemma near_len p : near_corner p -> len3R (vals p) <= 2 ^ 21.
Proof.
  intros H. assert (P : 0 < 2 ^ 20) by (apply pow_lt; lra). replace (2 ^ 21) with (2 * 2 ^ 20) by (rewrite tech_pow_Rmult; reflexivity).
  destruct p as [[x y] z]. pose proof (H 0%nat ltac:(lia)) as (_ & Hx). pose proof (H 1%nat ltac:(lia)) as (_ & Hy). pose proof (H 2%nat ltac:(lia)) as (_ & Hz). cbn [comp fst snd] in *.
  eapply Rle_trans; [apply (len_box _ _ _ (2 ^ 20))|]; [lra|assumption..|lra].
Qed.
Lemma near_sub p q : near_corner p -> near_corner q -> len3R (sub3 (vals p) (vals q)) <= 2 ^ 22.
Proof.
  intros Hp Hq. apply near_len in Hp, Hq. replace (2 ^ 22) with (2 * 2 ^ 21) by (rewrite tech_pow_Rmult; reflexivity).
  pose proof (len_sub_tri (vals p) (0, 0, 0) (vals q)) as T. rewrite (len_sub_sym (0, 0, 0)) in T.
  assert (E : forall r, sub3 r (0, 0, 0) = r) by (intros [[x y] z]; cbn; repeat f_equal; ring). rewrite !E in T. lra.
Qed.
Lemma pow_up a b : (a <= b)%nat -> 2 ^ a <= 2 ^ b. Proof. intros H. apply Rle_pow; [lra|exact H]. Qed.
Lemma plane_fit (cfg : Cfg) (a b c : f32 * f32 * f32) : near_corner a -> near_corner b -> near_corner c ->
  exists p : dplane, vecf_compute_plane (l3 a) (l3 b) (l3 c) = Ok (arr p) /\ sane4 p /\ fit uro eta (vface (a, b, c)) (fst (hsv p)) (snd (hsv p)).
Proof.
  intros Ha Hb Hc.
  assert (W : forall p, near_corner p -> forall k, (k < 3)%nat -> fin (comp k p) /\ Rabs (val (comp k p)) <= 2 ^ 20).
  { intros p Hp k Hk. destruct (Hp k Hk) as (F & B). split; [exact F|]. pose proof (pow_up 20 20 ltac:(lia)). lra. }
  destruct (C208_compute_plane_error cfg a b c (W a Ha) (W b Hb) (W c Hc)) as (m & w & E & Fm & Fw & D & V & _).
  destruct m as [[x y] z]. exists (x, y, z, w). split; [exact E|].
  assert (FT : fit uro eta (vface (a, b, c)) (vals (x, y, z)) (val w)).
  { split.
    - unfold Rdiv in D. eapply Rle_trans; [exact D|]. right. cbn [vface ferr]. unfold fheight, fnormal, uro, eta, Rdiv. ring.
    - pose proof (V a ltac:(cbn; tauto)) as Va. cbn [vface fbase].
      assert (Z : len3R (sub3 (vals a) (vals a)) = 0).
      { apply len3_zero. destruct (vals a) as [[a0 a1] a2]. cbn. unfold zero3. repeat f_equal; ring. }
      rewrite Z in Va. eapply Rle_trans; [exact Va|]. right. unfold uro, eta, Rdiv. ring. }
  split; [|exact FT].
  pose proof uro_val as UV. pose proof eta_pos as EP.
  assert (UO : 0 < uro <= / 100000) by (rewrite UV; lra).
  assert (ET : eta <= 1) by (unfold eta; rewrite <- Rinv_1; apply Rinv_le_contravar; [lra|apply pow_R1_Rle; lra]).
  assert (FE : 1 + ferr uro eta (vface (a, b, c)) <= 2 ^ 26).
  { cbn [vface ferr]. pose proof (near_sub b c Hb Hc) as N1. pose proof (near_sub a b Ha Hb) as N2.
    destruct (hlen_facts (fnormal (vals a, vals b, vals c))) as (P1 & _). unfold hlen in P1. fold (fheight (vals a, vals b, vals c)) in P1. set (H := fheight _) in *.
    pose proof (len3_nonneg (sub3 (vals b) (vals c))) as Z1. pose proof (len3_nonneg (sub3 (vals a) (vals b))) as Z2. set (l1 := len3R (sub3 (vals b) (vals c))) in *. set (l2 := len3R (sub3 (vals a) (vals b))) in *.
    assert (Q1 : l1 * l2 <= 2 ^ 44) by (replace (2 ^ 44) with (2 ^ 22 * 2 ^ 22) by (rewrite <- pow_add; reflexivity); apply Rmult_le_compat; assumption).
    assert (Q2 : l1 * l2 / H <= 2 ^ 44).
    { unfold Rdiv. rewrite <- (Rmult_1_r (2 ^ 44)). apply Rmult_le_compat; [apply Rmult_le_pos; assumption|left; apply Rinv_0_lt_compat; lra|exact Q1|]. rewrite <- Rinv_1. apply Rinv_le_contravar; lra. }
    assert (Q3 : 32 * uro * (l1 * l2 / H) <= 2 ^ 25).
    { assert (X : 32 * uro * 2 ^ 44 <= 2 ^ 25).
      { replace (2 ^ 44) with (2 ^ 19 * 2 ^ 25) by (rewrite <- pow_add; reflexivity). rewrite <- Rmult_assoc. rewrite <- (Rmult_1_l (2 ^ 25)) at 2. apply Rmult_le_compat_r; [apply pow_le; lra|]. rewrite UV. lra. }
      eapply Rle_trans; [apply Rmult_le_compat_l; [lra|exact Q2]|exact X]. }
    assert (14 <= 2 ^ 25) by (apply Rle_trans with (2 ^ 4); [lra|apply pow_up; lia]). replace (2 ^ 26) with (2 * 2 ^ 25) by (rewrite tech_pow_Rmult; reflexivity). lra. }
  pose proof (fit_l1 uro eta UO _ _ _ FT) as L1. pose proof (fit_w uro eta UO _ _ _ FT) as FW. cbn [vals fst snd] in L1.
  assert (T400 : 4 * 2 ^ 50 <= 2 ^ 60) by (replace (2 ^ 60) with (2 ^ 10 * 2 ^ 50) by (rewrite <- pow_add; reflexivity); apply Rmult_le_compat_r; [apply pow_le|]; lra).
  assert (T390 : 2 ^ 26 <= 2 ^ 50) by (apply pow_up; lia). assert (T0 : 1 <= 2 ^ 50) by (apply pow_R1_Rle; lra).
  pose proof (Rabs_pos (val x)). pose proof (Rabs_pos (val y)). pose proof (Rabs_pos (val z)).
  assert (BW : Rabs (val w) <= 2 ^ 60).
  { eapply Rle_trans; [exact FW|]. cbn [vface fbase]. pose proof (near_len a Ha) as NA.
    assert ((1 + ferr uro eta (vface (a, b, c))) * len3R (vals a) <= 2 ^ 47).
    { replace (2 ^ 47) with (2 ^ 26 * 2 ^ 21) by (rewrite <- pow_add; reflexivity). apply Rmult_le_compat; [|apply len3_nonneg|exact FE|exact NA]. pose proof (ferr_nn uro eta _ _ _ FT). lra. }
    assert (2 ^ 47 <= 2 ^ 50) by (apply pow_up; lia). rewrite Rmult_assoc. cbn [vface] in *. lra. }
  repeat split; first [exact Fw|exact BW|apply (Fm 0%nat); lia|apply (Fm 1%nat); lia|apply (Fm 2%nat); lia|lra].
Qed.

(** The setup: the planes of the culler fit the faces one by one. *)
Definition dfaces (a b c d e f g h : f32 * f32 * f32) : list dface := [(c, a, e); (f, b, d); (h, d, c); (a, b, f); (b, a, c); (g, e, f)].
Lemma setup_fit (cfg : Cfg) (a b c d e f g h : f32 * f32 * f32) : (forall p, In p [a; b; c; d; e; f; g; h] -> near_corner p) ->
  exists cl P, fcf_setup_corners (l3 a) (l3 b) (l3 c) (l3 d) (l3 e) (l3 f) (l3 g) (l3 h) = Ok cl /\ fc_planes cl = map arr P /\ (forall p, In p P -> sane4 p) /\
  (forall F, In F (corner_faces (vals a) (vals b) (vals c) (vals d) (vals e) (vals f) (vals g) (vals h)) -> exists p, In p P /\ fit uro eta F (fst (hsv p)) (snd (hsv p))) /\
  (forall p, In p P -> exists F, In F (corner_faces (vals a) (vals b) (vals c) (vals d) (vals e) (vals f) (vals g) (vals h)) /\ fit uro eta F (fst (hsv p)) (snd (hsv p))).
Proof.
  intros HB.
  assert (Na : near_corner a) by (apply HB; cbn; tauto). assert (Nb : near_corner b) by (apply HB; cbn; tauto). assert (Nc : near_corner c) by (apply HB; cbn; tauto).
  assert (Nd : near_corner d) by (apply HB; cbn; tauto). assert (Ne : near_corner e) by (apply HB; cbn; tauto). assert (Nf : near_corner f) by (apply HB; cbn; tauto).
  assert (Ng : near_corner g) by (apply HB; cbn; tauto). assert (Nh : near_corner h) by (apply HB; cbn; tauto).
  destruct (plane_fit cfg c a e Nc Na Ne) as (p1 & E1 & S1 & F1). destruct (plane_fit cfg f b d Nf Nb Nd) as (p2 & E2 & S2 & F2).
  destruct (plane_fit cfg h d c Nh Nd Nc) as (p3 & E3 & S3 & F3). destruct (plane_fit cfg a b f Na Nb Nf) as (p4 & E4 & S4 & F4).
  destruct (plane_fit cfg b a c Nb Na Nc) as (p5 & E5 & S5 & F5). destruct (plane_fit cfg g e f Ng Ne Nf) as (p6 & E6 & S6 & F6).
  exists (arr p1, arr p2, arr p3, arr p4, arr p5, arr p6), [p1; p2; p3; p4; p5; p6].
  split; [unfold fcf_setup_corners; rewrite E1, E2, E3, E4, E5, E6; reflexivity|]. split; [reflexivity|]. cbn [vface] in *. unfold corner_faces. split; [|split].
  - intros p Hp. cbn in Hp. destruct Hp as [<-|[<-|[<-|[<-|[<-|[<-|[]]]]]]]; assumption.
  - intros F HF. cbn [In] in HF. destruct HF as [<-|[<-|[<-|[<-|[<-|[<-|[]]]]]]]; [exists p1|exists p2|exists p3|exists p4|exists p5|exists p6]; (split; [cbn; tauto|assumption]).
  - intros p Hp. cbn [In] in Hp. destruct Hp as [<-|[<-|[<-|[<-|[<-|[<-|[]]]]]]]; [exists (vals c, vals a, vals e)|exists (vals f, vals b, vals d)|exists (vals h, vals d, vals c)|exists (vals a, vals b, vals f)|exists (vals b, vals a, vals c)|exists (vals g, vals e, vals f)]; (split; [cbn; tauto|assumption]).
Qed.

Lemma sphere_margin F p c : fit uro eta F (fst (hsv p)) (snd (hsv p)) ->
  margin (hsv p) c + Rabs (hval (hsv p) c - face_val F c) <= fmargin uro eta F c c.
Proof.
  intros FT. pose proof uro_val as UV. assert (UO : 0 < uro <= / 100000) by (rewrite UV; lra). pose proof eta_pos as EP.
  pose proof (fit_terms uro eta UO _ _ _ FT c) as T. pose proof (fit_val uro eta UO _ _ _ FT c) as V.
  pose proof (ferr_nn uro eta _ _ _ FT) as EN.
  unfold margin, hval, fmargin. replace (hsv p) with (fst (hsv p), snd (hsv p)) at 1 by (destruct (hsv p); reflexivity).
  set (e := ferr uro eta F) in *. set (A := len3R (fbase F)) in *. set (C := len3R c) in *.
  assert (A0 : 0 <= A) by apply len3_nonneg. assert (C0 : 0 <= C) by apply len3_nonneg. set (Q := e * len3R (sub3 c (fbase F))) in *.
  assert (X : 5 * uro * termsR (fst (hsv p), snd (hsv p)) c <= 5 * uro * ((1 + e) * (C + 1001 / 1000 * A) + 4 * eta)) by (apply Rmult_le_compat_l; lra).
  assert (U1 : uro * eta <= eta) by (rewrite <- (Rmult_1_l eta) at 2; apply Rmult_le_compat_r; lra).
  assert (G1 : 0 <= uro * ((1 + e) * A)) by (apply Rmult_le_pos; [lra|apply Rmult_le_pos; lra]).
  assert (G2 : 0 <= uro * ((1 + e) * C)) by (apply Rmult_le_pos; [lra|apply Rmult_le_pos; lra]).
  assert (G3 : 0 <= e * eta) by (apply Rmult_le_pos; lra).
  replace (5 / 2 ^ 24) with (5 * uro) by (unfold uro, Rdiv; ring). replace (4 / 2 ^ 150) with (4 * eta) by (unfold eta, Rdiv; ring).
  replace ((1 + e) * (15 * uro * (C + A) + 80 * eta)) with (15 * (uro * ((1 + e) * C)) + 15 * (uro * ((1 + e) * A)) + 80 * eta + 80 * (e * eta)) by ring.
  replace (5 * uro * ((1 + e) * (C + 1001 / 1000 * A) + 4 * eta)) with (5 * (uro * ((1 + e) * C)) + 5 * 1001 / 1000 * (uro * ((1 + e) * A)) + 20 * (uro * eta)) in X by field.
  replace (4 * uro * ((1 + e) * A)) with (4 * (uro * ((1 + e) * A))) in V by ring. lra.
Qed.
Lemma box_margin_fit F p x0 x1 y0 y1 z0 z1 q : fit uro eta F (fst (hsv p)) (snd (hsv p)) ->
  box_margin (hsv p) x0 x1 y0 y1 z0 z1 + Rabs (hval (hsv p) q - face_val F q) <= fmargin uro eta F (PCullF2.reach x0 x1, PCullF2.reach y0 y1, PCullF2.reach z0 z1) q.
Proof.
  intros FT. pose proof uro_val as UV. assert (UO : 0 < uro <= / 100000) by (rewrite UV; lra). pose proof eta_pos as EP.
  set (r := (PCullF2.reach x0 x1, PCullF2.reach y0 y1, PCullF2.reach z0 z1)).
  pose proof (fit_terms uro eta UO _ _ _ FT r) as T. pose proof (fit_val uro eta UO _ _ _ FT q) as V. pose proof (fit_l1 uro eta UO _ _ _ FT) as L1.
  pose proof (ferr_nn uro eta _ _ _ FT) as EN.
  assert (B : box_margin (hsv p) x0 x1 y0 y1 z0 z1 = 10 * uro * termsR (fst (hsv p), snd (hsv p)) r + (20 * (Rabs (fst (fst (fst (hsv p)))) + Rabs (snd (fst (fst (hsv p)))) + Rabs (snd (fst (hsv p)))) + 10) * eta).
  { replace (fst (hsv p), snd (hsv p)) with (hsv p) by (destruct (hsv p); reflexivity). apply PCullF2.box_margin_terms. }
  rewrite B. clear B. unfold hval, fmargin. set (l1 := Rabs _ + Rabs _ + Rabs _) in *.
  set (e := ferr uro eta F) in *. set (A := len3R (fbase F)) in *. set (C := len3R r) in *.
  assert (A0 : 0 <= A) by apply len3_nonneg. assert (C0 : 0 <= C) by apply len3_nonneg. set (Q := e * len3R (sub3 q (fbase F))) in *.
  assert (X : 10 * uro * termsR (fst (hsv p), snd (hsv p)) r <= 10 * uro * ((1 + e) * (C + 1001 / 1000 * A) + 4 * eta)) by (apply Rmult_le_compat_l; lra).
  assert (Y : (20 * l1 + 10) * eta <= (20 * (3 * (1 + e)) + 10) * eta) by (apply Rmult_le_compat_r; lra).
  assert (U1 : uro * eta <= / 100000 * eta) by (apply Rmult_le_compat_r; lra).
  assert (G1 : 0 <= uro * ((1 + e) * A)) by (apply Rmult_le_pos; [lra|apply Rmult_le_pos; lra]).
  assert (G2 : 0 <= uro * ((1 + e) * C)) by (apply Rmult_le_pos; [lra|apply Rmult_le_pos; lra]).
  assert (G3 : 0 <= e * eta) by (apply Rmult_le_pos; lra).
  replace ((1 + e) * (15 * uro * (C + A) + 80 * eta)) with (15 * (uro * ((1 + e) * C)) + 15 * (uro * ((1 + e) * A)) + 80 * eta + 80 * (e * eta)) by ring.
  replace (10 * uro * ((1 + e) * (C + 1001 / 1000 * A) + 4 * eta)) with (10 * (uro * ((1 + e) * C)) + 10 * 1001 / 1000 * (uro * ((1 + e) * A)) + 40 * (uro * eta)) in X by field.
  replace ((20 * (3 * (1 + e)) + 10) * eta) with (70 * eta + 60 * (e * eta)) in Y by ring.
  replace (4 * uro * ((1 + e) * A)) with (4 * (uro * ((1 + e) * A))) in V by ring. lra.
Qed.

Lemma abs_le_inv (a b : R) : Rabs a <= b -> - b <= a <= b.
Proof. unfold Rabs. destruct (Rcase_abs a); lra. Qed.

(** C217: spheres. *)
Theorem C217_corner_sphere_culling :
  forall (cfg : Cfg) (a b c d e f g h : f32 * f32 * f32) (x y z rad : f32),
  (forall p, In p [a; b; c; d; e; f; g; h] -> near_corner p) -> sane x -> sane y -> sane z -> sane rad ->
  let ctr := (val x, val y, val z) in
  let FF := corner_faces (vals a) (vals b) (vals c) (vals d) (vals e) (vals f) (vals g) (vals h) in
  let mg := fun F => fmargin (/ 2 ^ 24) (/ 2 ^ 150) F ctr ctr in
  exists cl v, fcf_setup_corners (l3 a) (l3 b) (l3 c) (l3 d) (l3 e) (l3 f) (l3 g) (l3 h) = Ok cl /\ fc_test_sphere cl [x; y; z; rad] = Ok v /\
  (v = V_NONE -> exists F, In F FF /\ forall q, in_ball ctr (val rad) q -> face_val F q <= mg F) /\
  (v = V_FULL -> forall F q, In F FF -> in_ball ctr (val rad) q -> - mg F <= face_val F q) /\
  ((exists F, In F FF /\ face_val F ctr <= - val rad - mg F) -> v = V_NONE) /\
  (0 < val rad -> (forall F, In F FF -> val rad + mg F <= face_val F ctr) -> v = V_FULL).
Proof.
  intros cfg a b c d e f g h x y z rad HB Hx Hy Hz Hr ctr FF mg.
  destruct (setup_fit cfg a b c d e f g h HB) as (cl & P & ES & EP & SP & FP & PF). fold FF in FP, PF.
  destruct (C153_sphere_culling_in_float cl P x y z rad EP SP Hx Hy Hz Hr) as (v & EV & V1 & V2 & V3 & V4). fold ctr in V1, V2, V3, V4.
  assert (MG : forall F p, fit uro eta F (fst (hsv p)) (snd (hsv p)) -> margin (hsv p) ctr + Rabs (hval (hsv p) ctr - face_val F ctr) <= mg F) by (intros F p H; apply sphere_margin; exact H).
  exists cl, v. split; [exact ES|]. split; [exact EV|]. split; [|split; [|split]].
  - intros H. destruct (V1 H) as (p & Hp & L). destruct (PF p Hp) as (F & HF & FT). exists F. split; [exact HF|]. intros q Hq. unfold in_ball in Hq.
    pose proof (MG F p FT) as M. pose proof (face_lip F q ctr) as LI. pose proof (abs_le_inv _ _ LI). pose proof (abs_le_inv _ _ (Rle_refl (Rabs (hval (hsv p) ctr - face_val F ctr)))). lra.
  - intros H F q HF Hq. destruct (FP F HF) as (p & Hp & FT). pose proof (V2 H p Hp) as L. unfold in_ball in Hq.
    pose proof (MG F p FT) as M. pose proof (face_lip F q ctr) as LI. pose proof (abs_le_inv _ _ LI). pose proof (abs_le_inv _ _ (Rle_refl (Rabs (hval (hsv p) ctr - face_val F ctr)))). lra.
  - intros (F & HF & L). apply V3. destruct (FP F HF) as (p & Hp & FT). exists p. split; [exact Hp|].
    pose proof (MG F p FT) as M. pose proof (abs_le_inv _ _ (Rle_refl (Rabs (hval (hsv p) ctr - face_val F ctr)))). lra.
  - intros R0 H. apply V4; [exact R0|]. intros p Hp. destruct (PF p Hp) as (F & HF & FT). pose proof (H F HF) as L.
    pose proof (MG F p FT) as M. pose proof (abs_le_inv _ _ (Rle_refl (Rabs (hval (hsv p) ctr - face_val F ctr)))). lra.
Qed.
Print Assumptions C217_corner_sphere_culling.

(** C217: boxes. *)
Theorem C217_corner_box_culling :
  forall (cfg : Cfg) (wide : bool) (a b c d e f g h : f32 * f32 * f32) (x0 x1 y0 y1 z0 z1 : f32),
  (forall p, In p [a; b; c; d; e; f; g; h] -> near_corner p) -> sane x0 -> sane x1 -> sane y0 -> sane y1 -> sane z0 -> sane z1 ->
  let box := in_span (val x0) (val x1) (val y0) (val y1) (val z0) (val z1) in
  let rch := fun s t => Rmax (Rabs (val s)) (Rabs (val t)) in
  let FF := corner_faces (vals a) (vals b) (vals c) (vals d) (vals e) (vals f) (vals g) (vals h) in
  let mg := fun F q => fmargin (/ 2 ^ 24) (/ 2 ^ 150) F (rch x0 x1, rch y0 y1, rch z0 z1) q in
  exists cl v, fcf_setup_corners (l3 a) (l3 b) (l3 c) (l3 d) (l3 e) (l3 f) (l3 g) (l3 h) = Ok cl /\ fcf_test_aabb wide cl [x0; x1] [y0; y1] [z0; z1] = Ok v /\
  (v = V_NONE -> exists F, In F FF /\ forall q, box q -> face_val F q <= mg F q) /\
  (v = V_FULL -> forall F q, In F FF -> box q -> - mg F q <= face_val F q) /\
  ((exists F, In F FF /\ forall q, box q -> face_val F q < - mg F q) -> v = V_NONE) /\
  ((forall F q, In F FF -> box q -> mg F q <= face_val F q) -> v = V_FULL).
Proof.
  intros cfg wide a b c d e f g h x0 x1 y0 y1 z0 z1 HB Hx0 Hx1 Hy0 Hy1 Hz0 Hz1 box rch FF mg.
  destruct (setup_fit cfg a b c d e f g h HB) as (cl & P & ES & EP & SP & FP & PF). fold FF in FP, PF.
  destruct (C153_box_culling_in_float cfg wide cl P x0 x1 y0 y1 z0 z1 EP SP Hx0 Hx1 Hy0 Hy1 Hz0 Hz1) as (v & EV & V1 & V2 & V3 & V4). fold box in V1, V2, V3, V4.
  assert (MG : forall F p q, fit uro eta F (fst (hsv p)) (snd (hsv p)) -> box_margin (hsv p) (val x0) (val x1) (val y0) (val y1) (val z0) (val z1) + Rabs (hval (hsv p) q - face_val F q) <= mg F q) by (intros F p q H; apply box_margin_fit; exact H).
  exists cl, v. split; [exact ES|]. split; [exact EV|]. split; [|split; [|split]].
  - intros H. destruct (V1 H) as (p & Hp & L). destruct (PF p Hp) as (F & HF & FT). exists F. split; [exact HF|]. intros q Hq. pose proof (L q Hq) as L1.
    pose proof (MG F p q FT) as M. pose proof (abs_le_inv _ _ (Rle_refl (Rabs (hval (hsv p) q - face_val F q)))). lra.
  - intros H F q HF Hq. destruct (FP F HF) as (p & Hp & FT). pose proof (V2 H p q Hp Hq) as L.
    pose proof (MG F p q FT) as M. pose proof (abs_le_inv _ _ (Rle_refl (Rabs (hval (hsv p) q - face_val F q)))). lra.
  - intros (F & HF & L). apply V3. destruct (FP F HF) as (p & Hp & FT). exists p. split; [exact Hp|]. intros q Hq. pose proof (L q Hq) as L1.
    pose proof (MG F p q FT) as M. pose proof (abs_le_inv _ _ (Rle_refl (Rabs (hval (hsv p) q - face_val F q)))). lra.
  - intros H. apply V4. intros p q Hp Hq. destruct (PF p Hp) as (F & HF & FT). pose proof (H F q HF Hq) as L.
    pose proof (MG F p q FT) as M. pose proof (abs_le_inv _ _ (Rle_refl (Rabs (hval (hsv p) q - face_val F q)))). lra.
Qed.
Print Assumptions C217_corner_box_culling.

(** The cube from -1 to 1 and the ball of radius 1/2 in its middle: the case FULL. *)
Definition m1 : f32 := b32_opp f32_one.
Lemma cube_face (F : cface) : let '(a, b, c) := F in
  dot3 (fnormal F) (fnormal F) = 16 -> dot3 (fnormal F) (sub3 (0, 0, 0) a) = 4 -> dot3 (sub3 b c) (sub3 b c) = 4 -> dot3 (sub3 a b) (sub3 a b) = 4 -> dot3 a a = 3 ->
  / 2 + fmargin (/ 2 ^ 24) (/ 2 ^ 150) F (0, 0, 0) (0, 0, 0) <= face_val F (0, 0, 0).
Proof.
  destruct F as [[a b] c]. intros H1 H2 H3 H4 H5. unfold face_val, fmargin, fheight, ferr. cbn [fbase]. unfold fheight. rewrite H1, H2.
  assert (L2 : forall v, dot3 v v = 4 -> len3R v = 2) by (intros v Hv; unfold len3R; rewrite Hv; replace 4 with (2 * 2) by ring; apply sqrt_square; lra).
  rewrite (L2 _ H3), (L2 _ H4).
  assert (A2 : len3R a <= 2) by (unfold len3R; rewrite H5; rewrite <- (sqrt_square 2) by lra; apply sqrt_le_1_alt; lra).
  assert (Z0 : len3R (0, 0, 0) = 0) by (unfold len3R; cbn [dot3]; replace (0 * 0 + 0 * 0 + 0 * 0) with 0 by ring; apply sqrt_0). rewrite Z0.
  assert (A3 : len3R (sub3 (0, 0, 0) a) = len3R a) by (rewrite len_sub_sym; f_equal; destruct a as [[x y] z]; cbn; repeat f_equal; ring). rewrite A3.
  assert (S17 : 4 <= sqrt (16 + 1) <= 9 / 2).
  { split; [rewrite <- (sqrt_square 4) by lra; apply sqrt_le_1_alt; lra|]. rewrite <- (sqrt_square (9 / 2)) by lra. apply sqrt_le_1_alt. lra. }
  set (s := sqrt (16 + 1)) in *. pose proof (len3_nonneg a) as A0. set (l := len3R a) in *.
  assert (I1 : 2 * 2 / s <= 1) by (apply (Rmult_le_reg_r s); [lra|]; unfold Rdiv; rewrite Rmult_assoc, Rinv_l by lra; lra).
  assert (I0 : 0 <= 2 * 2 / s) by (unfold Rdiv; apply Rmult_le_pos; [lra|left; apply Rinv_0_lt_compat; lra]).
  assert (I2 : 8 / 9 <= 4 / s) by (apply (Rmult_le_reg_r s); [lra|]; unfold Rdiv; rewrite (Rmult_assoc 4), Rinv_l by lra; lra).
  pose proof uro_val as UV. fold uro. fold eta. assert (U1 : 0 < uro <= / 1000000) by (rewrite UV; lra).
  assert (ET : 0 < eta <= / 100000) by (split; [apply eta_pos|]; unfold eta; apply Rinv_le_contravar; [lra|]; apply Rle_trans with (2 ^ 17); [lra|apply pow_up; lia]).
  assert (E1 : 0 <= 32 * uro * (2 * 2 / s) + 13 * eta <= / 1000).
  { split; [assert (0 <= uro * (2 * 2 / s)) by (apply Rmult_le_pos; lra); lra|].
    assert (uro * (2 * 2 / s) <= / 1000000 * 1) by (apply Rmult_le_compat; lra). lra. }
  set (e := 32 * uro * (2 * 2 / s) + 13 * eta) in *.
  assert (e * l <= / 1000 * 2) by (apply Rmult_le_compat; lra).
  assert (uro * (0 + l) <= / 1000000 * 2) by (apply Rmult_le_compat; lra).
  assert ((1 + e) * (15 * uro * (0 + l) + 80 * eta) <= 2 * (/ 100)) by (apply Rmult_le_compat; try lra; assert (0 <= uro * (0 + l)) by (apply Rmult_le_pos; lra); lra).
  lra.
Qed.
Example C217_hypotheses_met :
  let o := f32_one in let a := (m1, o, o) in let b := (o, o, o) in let c := (m1, m1, o) in let d := (o, m1, o) in
  let e := (m1, o, m1) in let f := (o, o, m1) in let g := (m1, m1, m1) in let h := (o, m1, m1) in
  let ctr := (val f32_zero, val f32_zero, val f32_zero) in
  (forall p, In p [a; b; c; d; e; f; g; h] -> near_corner p) /\ sane f32_zero /\ sane f32_half /\ 0 < val f32_half /\
  (forall F, In F (corner_faces (vals a) (vals b) (vals c) (vals d) (vals e) (vals f) (vals g) (vals h)) ->
    val f32_half + fmargin (/ 2 ^ 24) (/ 2 ^ 150) F ctr ctr <= face_val F ctr).
Proof.
  assert (V0 : val f32_zero = 0) by reflexivity. assert (V1 : val f32_one = 1) by apply val_one.
  assert (VM : val m1 = - 1) by (unfold m1, val, b32_opp; rewrite B2R_Bopp; fold (val f32_one); rewrite V1; ring).
  assert (VH : val f32_half = / 2) by apply val_half.
  assert (P1 : 1 <= 2 ^ 20) by (apply pow_R1_Rle; lra). assert (P2 : 1 <= 2 ^ 60) by (apply pow_R1_Rle; lra).
  assert (A1 : Rabs 1 = 1) by apply Rabs_R1. assert (AM : Rabs (- 1) = 1) by (unfold Rabs; destruct (Rcase_abs (- 1)); lra).
  cbv zeta. split; [|split; [|split; [|split]]].
  - assert (K : forall x y z, In x [f32_one; m1] -> In y [f32_one; m1] -> In z [f32_one; m1] -> near_corner (x, y, z)).
    { assert (Q : forall x, In x [f32_one; m1] -> fin x /\ Rabs (val x) <= 2 ^ 20).
      { intros x [<-|[<-|[]]]; (split; [reflexivity|]); rewrite ?V1, ?VM, ?A1, ?AM; lra. }
      intros x y z Hx Hy Hz k Hk. destruct k as [|[|[|k]]]; [apply (Q x Hx)|apply (Q y Hy)|apply (Q z Hz)|lia]. }
    intros p Hp. cbn [In] in Hp. repeat (destruct Hp as [<-|Hp]; [apply K; first [exact (or_introl eq_refl)|exact (or_intror (or_introl eq_refl))]|]). destruct Hp.
  - split; [reflexivity|]. rewrite V0, Rabs_R0. lra.
  - split; [reflexivity|]. rewrite VH, Rabs_pos_eq; lra.
  - rewrite VH. lra.
  - cbn [vals]. rewrite V0, V1, VM, VH. intros F HF. unfold corner_faces in HF. cbn [In] in HF.
    destruct HF as [<-|[<-|[<-|[<-|[<-|[<-|[]]]]]]]; (match goal with |- _ + fmargin _ _ ?f _ _ <= _ => refine (cube_face f _ _ _ _ _) end; cbn [fnormal dot3 cross3 sub3]; ring).
Qed.
