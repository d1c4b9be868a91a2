(** Property C154: a culler set up from a float matrix, end to end. *)
From Coq Require Import ZArith Reals Lra Psatz List.
From Flocq Require Import Core.Core IEEE754.BinarySingleNaN IEEE754.Binary IEEE754.Bits.
From Verif Require Import InstF InstF32 LBase LVector LVectorR LMatrix MFrustum Spec4 PCuller MFloat MCullF PF32 LF32 PF32b LExprF PCullF.
From Verif Require LF32d LExt32.
Import ListNotations.
Local Open Scope R_scope.
Local Existing Instance F32Scalar.
Local Notation bp := (bpow radix2).

(** The signed distance of a point from the boundary of a half-space. *)
Definition sdist (h : hs) (p : V3) : R := hval h p / len3R (fst h).
(** Componentwise closeness of a plane of floats to the normalised face. *)
Definition near_unit (p : dplane) (h : hs) : Prop :=
  let '((a, b, c), d) := h in let '(x, y, z, w) := p in let L := len3R (fst h) in
  let cl := fun (v : f32) (e : R) => sane v /\ Rabs (val v - e / L) <= 15 / 2 ^ 24 * Rabs (e / L) + / 2 ^ 150 in
  cl x a /\ cl y b /\ cl z c /\ cl w d.

Lemma real_quot d1 d2 t : Rabs d1 <= uro -> Rabs d2 <= uro -> Rabs t <= 8 * uro ->
  0 < 1 + t /\ Rabs ((1 + d1) * (1 + d2) / (1 + t) - 1) <= 11 * uro.
Proof.
  rewrite uro_val. intros H1 H2 H3. pose proof (Rabs_le_inv _ _ H3) as I3. assert (P : 0 < 1 + t) by lra. split; [exact P|].
  assert (D : Rabs (d1 * d2) <= / 16777216 * / 16777216) by (rewrite Rabs_mult; apply Rmult_le_compat; try apply Rabs_pos; assumption).
  apply Rabs_le_inv in H1, H2, D.
  apply Rabs_le. split.
  - apply Rmult_le_reg_r with (1 + t); [exact P|]. replace (((1 + d1) * (1 + d2) / (1 + t) - 1) * (1 + t)) with (d1 + d2 + d1 * d2 - t) by (field; lra). lra.
  - apply Rmult_le_reg_r with (1 + t); [exact P|]. replace (((1 + d1) * (1 + d2) / (1 + t) - 1) * (1 + t)) with (d1 + d2 + d1 * d2 - t) by (field; lra). lra.
Qed.
Lemma real_quot2 d h s : Rabs d <= uro -> Rabs h <= 11 * uro -> Rabs s <= 2 * uro ->
  0 < 1 + s /\ Rabs ((1 + d) * (1 + h) / (1 + s) - 1) <= 15 * uro.
Proof.
  rewrite uro_val. intros H1 H2 H3. pose proof (Rabs_le_inv _ _ H3) as I3. assert (P : 0 < 1 + s) by lra. split; [exact P|].
  assert (D : Rabs (d * h) <= / 16777216 * (11 * / 16777216)) by (rewrite Rabs_mult; apply Rmult_le_compat; try apply Rabs_pos; assumption).
  apply Rabs_le_inv in H1, H2, D.
  apply Rabs_le. split; apply Rmult_le_reg_r with (1 + s); try exact P; replace (((1 + d) * (1 + h) / (1 + s) - 1) * (1 + s)) with (d + h + d * h - s) by (field; lra); lra.
Qed.

(** Lengths of nearby vectors. *)
Lemma len3_mono a b c a' b' c' k : 0 <= k -> Rabs a <= k * Rabs a' -> Rabs b <= k * Rabs b' -> Rabs c <= k * Rabs c' -> len3R (a, b, c) <= k * len3R (a', b', c').
Proof.
  intros K HA HB HC. rewrite <- (Rabs_pos_eq k) at 1 by exact K. rewrite <- len3_scale. unfold len3R. apply sqrt_le_1_alt. cbn.
  assert (Q : forall x y, Rabs x <= k * Rabs y -> x * x <= k * y * (k * y)).
  { intros x y H. replace (x * x) with (Rabs x * Rabs x) by (rewrite <- Rabs_mult; apply Rabs_pos_eq; nra).
    replace (k * y * (k * y)) with ((k * Rabs y) * (k * Rabs y)). { apply Rmult_le_compat; try apply Rabs_pos; exact H. }
    replace (k * Rabs y * (k * Rabs y)) with (k * k * (Rabs y * Rabs y)) by ring. rewrite <- Rabs_mult, (Rabs_pos_eq (y * y)) by nra. ring. }
  pose proof (Q _ _ HA). pose proof (Q _ _ HB). pose proof (Q _ _ HC). lra.
Qed.
Lemma len3_near a b c a' b' c' : Rabs (a - a') <= uro * Rabs a' -> Rabs (b - b') <= uro * Rabs b' -> Rabs (c - c') <= uro * Rabs c' ->
  Rabs (len3R (a, b, c) - len3R (a', b', c')) <= 2 * uro * len3R (a', b', c').
Proof.
  intros HA HB HC.
  assert (U : forall x y, Rabs (x - y) <= uro * Rabs y -> Rabs x <= (1 + uro) * Rabs y) by (intros x y H; apply abs_tri_err in H; lra).
  assert (D : forall x y, Rabs (x - y) <= uro * Rabs y -> Rabs y <= (1 + 2 * uro) * Rabs x).
  { intros x y H. rewrite Rabs_minus_sym in H. apply abs_tri_err in H. rewrite uro_val in *. pose proof (Rabs_pos x). pose proof (Rabs_pos y). lra. }
  pose proof uro_pos as UP.
  assert (L1 := len3_mono a b c a' b' c' (1 + uro) ltac:(lra) (U _ _ HA) (U _ _ HB) (U _ _ HC)).
  assert (L2 := len3_mono a' b' c' a b c (1 + 2 * uro) ltac:(lra) (D _ _ HA) (D _ _ HB) (D _ _ HC)).
  pose proof (len3_nonneg (a, b, c)). pose proof (len3_nonneg (a', b', c')). rewrite uro_val in *. apply Rabs_le. split; lra.
Qed.
Lemma okf_sane i x : (i <= 60)%Z -> okf32 i x -> sane x.
Proof. intros H O. apply (okf32_le i 60) in O as (F & B); [|exact H]. split; [exact F|]. rewrite E60. exact B. Qed.

Lemma normalize_32 {cfg : Cfg} (a b c d : f32) : okf32 41 a -> okf32 41 b -> okf32 41 c -> okf32 41 d ->
  let L := len3R (val a, val b, val c) in bp (-17) <= L ->
  exists a' b' c' d', fcf_normalize_plane [a; b; c; d] = Ok [a'; b'; c'; d'] /\
  let cl := fun (v e : f32) => sane v /\ exists h m, Rabs h <= 11 * uro /\ Rabs m <= eta /\ val v = val e / L * (1 + h) + m in
  cl a' a /\ cl b' b /\ cl c' c /\ cl d' d.
Proof.
  intros Ha Hb Hc Hd L HL. set (f := fun i => nth i [a; b; c] f32_zero).
  assert (Hf : forall i, (i < 3)%nat -> fin (f i) /\ Rabs (val (f i)) <= bp 50).
  { intros i Hi. assert (okf32 50 (f i)) as O; [|exact O]. apply (okf32_le 41); [|lia]. destruct i as [|[|[|i]]]; [exact Ha|exact Hb|exact Hc|exfalso; lia]. }
  assert (EL : lenR 3 (fun i => val (f i)) = L).
  { unfold L, len3R, lenR, dotR, dot3. f_equal. cbn. ring. }
  assert (HL' : bp (-50) <= lenR 3 (fun i => val (f i))). { rewrite EL. eapply Rle_trans; [|exact HL]. apply bpow_le. lia. }
  destruct (len_rel 3 f Hf ltac:(cbn; lia) HL') as (r & t & E & F & Ht & Et). rewrite EL in Et.
  replace (2 * (INR 3 + 1) * uro) with (8 * uro) in Ht by (cbn; ring).
  assert (EV : vec_length 3 [a; b; c] = Ok r).
  { unfold vec_length. rewrite (vec_squared_length_spec 3 [a; b; c] f) by (split; [reflexivity|]; intros i Hi; destruct i as [|[|[|i]]]; try reflexivity; exfalso; lia). exact E. }
  assert (LP : 0 < L) by (eapply Rlt_le_trans; [apply bpow_gt_0|exact HL]).
  assert (TS : Rabs t <= / 1000) by (rewrite uro_val in Ht; lra). apply Rabs_le_inv in TS.
  assert (RP : 0 < val r) by (rewrite Et; apply Rmult_lt_0_compat; lra).
  assert (RL : bp (-18) <= val r).
  { rewrite Et. apply Rle_trans with (bp (-17) * / 2); [change (/ 2) with (bp (-1)); rewrite <- bpow_plus; apply bpow_le; lia|].
    apply Rmult_le_compat; [apply bpow_ge_0|lra|exact HL|lra]. }
  assert (RH : val r <= bp 56).
  { pose proof (L_high 3 f Hf ltac:(cbn; lia) HL') as LH. rewrite EL in LH. rewrite Et. change 56%Z with (55 + 1)%Z. rewrite bpow_plus. apply Rmult_le_compat; [lra|lra|exact LH|cbn; lra]. }
  pose proof val_one as V1.
  assert (I1 : Rabs (val f32_one / val r) <= bp 18).
  { rewrite V1. unfold Rdiv. rewrite Rmult_1_l, Rabs_pos_eq by (apply Rlt_le, Rinv_0_lt_compat; exact RP).
    change 18%Z with (Z.opp (-18)). rewrite bpow_opp. apply Rinv_le; [apply bpow_gt_0|exact RL]. }
  assert (I2 : bp (-56) <= Rabs (val f32_one / val r)).
  { rewrite V1. unfold Rdiv. rewrite Rmult_1_l, Rabs_pos_eq by (apply Rlt_le, Rinv_0_lt_compat; exact RP).
    change (-56)%Z with (Z.opp 56). rewrite bpow_opp. apply Rinv_le; [exact RP|exact RH]. }
  pose proof (rnd_le _ 18 ltac:(lia) I1) as I3.
  destruct (div_fin f32_one r ltac:(reflexivity) ltac:(lra)) as (Ft & Eti). { eapply Rle_lt_trans; [exact I3|]. apply bpow_lt. lia. }
  destruct (rnd_rel (val f32_one / val r)) as (d1 & Hd1 & Ed1). { eapply Rle_trans; [|exact I2]. apply bpow_le. lia. }
  assert (SR : recip_via_double r = b32_div mode_NE f32_one r).
  { destruct (LF32d.recip_same r) as [X|(_ & X)]; [exact X|]. unfold fin in Ft. destruct (b32_div mode_NE f32_one r); discriminate. }
  rewrite <- SR in Ft, Eti. set (tmp := recip_via_double r) in *. rewrite <- Eti in Ed1, I3.
  assert (OT : okf32 18 tmp) by (split; [exact Ft|exact I3]).
  exists (b32_mult mode_NE a tmp), (b32_mult mode_NE b tmp), (b32_mult mode_NE c tmp), (b32_mult mode_NE d tmp). split.
  { unfold fcf_normalize_plane. change (vec_sub_vector 3 [a; b; c; d] 0) with (Ok [a; b; c]). cbn [bind]. rewrite EV. cbn [bind sdiv F32Scalar sone]. reflexivity. }
  assert (C : forall e, okf32 41 e -> sane (b32_mult mode_NE e tmp) /\ exists h m, Rabs h <= 11 * uro /\ Rabs m <= eta /\ val (b32_mult mode_NE e tmp) = val e / L * (1 + h) + m).
  { intros e He. destruct (okf32_mult 41 18 e tmp He OT ltac:(lia)) as (O & _). split; [apply (okf_sane 59); [lia|exact O]|].
    assert (P1 : Rabs (val e * val tmp) <= bp 59).
    { change 59%Z with (41 + 18)%Z. rewrite bpow_plus, Rabs_mult. apply Rmult_le_compat; try apply Rabs_pos; [apply He|apply OT]. }
    destruct (mult_fin e tmp (proj1 He) Ft) as (Fc & Ec). { eapply Rle_lt_trans; [apply (rnd_le _ 59 ltac:(lia) P1)|]. apply bpow_lt. lia. }
    destruct (mult_error (val e) (val tmp)) as (d2 & m & Hd2 & Hm & EM).
    destruct (real_quot d1 d2 t Hd1 Hd2 Ht) as (PT & Q). exists ((1 + d1) * (1 + d2) / (1 + t) - 1), m. split; [exact Q|]. split; [exact Hm|].
    rewrite Ec, EM, Ed1, Et, V1. field. lra. }
  split; [apply C, Ha|]. split; [apply C, Hb|]. split; [apply C, Hc|apply C, Hd].
Qed.

(** One face. *)
Definition okm (g : nat -> nat -> f32) : Prop := forall i j, (i < 4)%nat -> (j < 4)%nat -> fin (g i j) /\ Rabs (val (g i j)) <= 2 ^ 40.
Lemma E40 : 2 ^ 40 = bp 40.
Proof. exact (eq_sym (bpow_pow 40)). Qed.
Lemma Em16 : / 2 ^ 16 = bp (-16).
Proof. exact (eq_sym (eq_trans (bpow_opp radix2 16) (f_equal Rinv (bpow_pow 16)))). Qed.
Lemma plane_32 {cfg : Cfg} (a b c d : f32) (X Y Z W : R) : okf32 41 a -> okf32 41 b -> okf32 41 c -> okf32 41 d ->
  Rabs (val a - X) <= uro * Rabs X -> Rabs (val b - Y) <= uro * Rabs Y -> Rabs (val c - Z) <= uro * Rabs Z -> Rabs (val d - W) <= uro * Rabs W ->
  bp (-16) <= len3R (X, Y, Z) ->
  exists p, fcf_normalize_plane [a; b; c; d] = Ok (arr p) /\ near_unit p ((X, Y, Z), W).
Proof.
  intros Ha Hb Hc Hd EA EB EC ED HL. pose proof (len3_near _ _ _ _ _ _ EA EB EC) as LN. set (L := len3R (X, Y, Z)) in *.
  assert (LP : 0 < L) by (eapply Rlt_le_trans; [apply bpow_gt_0|exact HL]).
  destruct (rel_factor _ L (2 * uro) LP LN) as (s & Hs & Es).
  assert (HL' : bp (-17) <= len3R (val a, val b, val c)).
  { rewrite Es. rewrite uro_val in Hs. apply Rabs_le_inv in Hs. apply Rle_trans with (bp (-16) * / 2); [change (/ 2) with (bp (-1)); rewrite <- bpow_plus; apply bpow_le; lia|].
    apply Rmult_le_compat; [apply bpow_ge_0|lra|exact HL|lra]. }
  destruct (normalize_32 a b c d Ha Hb Hc Hd HL') as (a' & b' & c' & d' & EN & CA & CB & CC & CD).
  exists (a', b', c', d'). split; [exact EN|]. cbn [near_unit fst]. fold L.
  assert (G : forall (v e : f32) E, Rabs (val e - E) <= uro * Rabs E ->
    (sane v /\ exists h m, Rabs h <= 11 * uro /\ Rabs m <= eta /\ val v = val e / len3R (val a, val b, val c) * (1 + h) + m) ->
    sane v /\ Rabs (val v - E / L) <= 15 / 2 ^ 24 * Rabs (E / L) + / 2 ^ 150).
  { intros v e E HE (SV & h & m & Hh & Hm & EV). split; [exact SV|]. change (/ 2 ^ 150) with eta. unfold Rdiv at 2. change (/ 2 ^ 24) with uro.
    assert (HE' : exists q, Rabs q <= uro /\ val e = E * (1 + q)).
    { destruct (Req_dec E 0) as [->|NZ].
      - exists 0. rewrite Rabs_R0 in HE |- *. split; [pose proof uro_pos; lra|]. rewrite Rmult_0_r in HE. apply Rabs_le_inv in HE. lra.
      - exists ((val e - E) / E). split; [|field; exact NZ]. unfold Rdiv. rewrite Rabs_mult, Rabs_inv. pose proof (Rabs_pos_lt E NZ).
        apply Rmult_le_reg_r with (Rabs E); [assumption|]. rewrite Rmult_assoc, Rinv_l by lra. lra. }
    destruct HE' as (q & Hq & Eq). destruct (real_quot2 q h s Hq Hh Hs) as (P & Q).
    rewrite EV, Es, Eq. replace (E * (1 + q) / (L * (1 + s)) * (1 + h) + m - E / L) with (((1 + q) * (1 + h) / (1 + s) - 1) * (E / L) + m) by (field; lra).
    eapply Rle_trans; [apply Rabs_triang|]. rewrite Rabs_mult. apply Rplus_le_compat; [|exact Hm]. apply Rmult_le_compat_r; [apply Rabs_pos|]. exact Q. }
  split; [exact (G _ _ _ EA CA)|]. split; [exact (G _ _ _ EB CB)|]. split; [exact (G _ _ _ EC CC)|exact (G _ _ _ ED CD)].
Qed.
Lemma bindE {A B : Type} (m : res A) (x : A) (f : A -> res B) : m = Ok x -> bind m f = f x.
Proof. intros ->. reflexivity. Qed.
Lemma list4 {T} (l : list T) f : repV 4 l f -> l = [f 0%nat; f 1%nat; f 2%nat; f 3%nat].
Proof.
  intros (E & H). destruct l as [|a [|b [|c [|d [|e l]]]]]; try discriminate E.
  pose proof (H 0%nat ltac:(lia)) as H0. pose proof (H 1%nat ltac:(lia)) as H1. pose proof (H 2%nat ltac:(lia)) as H2. pose proof (H 3%nat ltac:(lia)) as H3. cbn in *. congruence.
Qed.

Definition vals (g : nat -> nat -> f32) (i j : nat) : R := val (g i j).
(** C154: setup() succeeds for every float matrix with elements of at most
    2^40 whose six exact faces have normals of at least 2^-16, and every
    component of every plane it stores is the component of the exact face's unit
    plane up to 15 half-ulps (and half the smallest subnormal). *)
Theorem C154_setup_planes_in_float :
  forall (cfg : Cfg) (m : list f32) (g : nat -> nat -> f32),
  repM 4 4 m g -> okm g -> (forall h, In h (faces (vals g)) -> / 2 ^ 16 <= len3R (fst h)) ->
  exists cl P, fcf_setup m = Ok cl /\ fc_planes cl = map arr P /\ Forall2 near_unit P (faces (vals g)).
Proof.
  intros cfg m g Hm HG HL.
  destruct (mat_get_row_spec 4 4 m g 0 Hm ltac:(lia)) as (r0 & E0 & H0). destruct (mat_get_row_spec 4 4 m g 1 Hm ltac:(lia)) as (r1 & E1 & H1).
  destruct (mat_get_row_spec 4 4 m g 2 Hm ltac:(lia)) as (r2 & E2 & H2). destruct (mat_get_row_spec 4 4 m g 3 Hm ltac:(lia)) as (r3 & E3 & H3).
  apply list4 in H0, H1, H2, H3. cbv beta in H0, H1, H2, H3. subst r0 r1 r2 r3. unfold fcf_setup. rewrite E0, E1, E2, E3. cbn [bind].
  assert (OG : forall i j, (i < 4)%nat -> (j < 4)%nat -> okf32 40 (g i j)). { intros i j Hi Hj. destruct (HG i j Hi Hj) as (F & B). split; [exact F|]. rewrite <- E40. exact B. }
  assert (FP : forall k, (k < 3)%nat -> bp (-16) <= len3R (fst (face (vals g) 1 k)) ->
    exists p, fcf_normalize_plane [b32_plus mode_NE (g 3%nat 0%nat) (g k 0%nat); b32_plus mode_NE (g 3%nat 1%nat) (g k 1%nat); b32_plus mode_NE (g 3%nat 2%nat) (g k 2%nat); b32_plus mode_NE (g 3%nat 3%nat) (g k 3%nat)] = Ok (arr p) /\ near_unit p (face (vals g) 1 k)).
  { intros k Hk HLk. assert (C : forall j, (j < 4)%nat -> okf32 41 (b32_plus mode_NE (g 3%nat j) (g k j)) /\ Rabs (val (b32_plus mode_NE (g 3%nat j) (g k j)) - (vals g 3 j + 1 * vals g k j)) <= uro * Rabs (vals g 3 j + 1 * vals g k j)).
    { intros j Hj. rewrite Rmult_1_l. apply (okf32_plus 40 _ _ (OG 3%nat j ltac:(lia) Hj) (OG k j ltac:(lia) Hj) ltac:(lia)). }
    apply plane_32; try (apply C; lia). exact HLk. }
  assert (FM : forall k, (k < 3)%nat -> bp (-16) <= len3R (fst (face (vals g) (-1) k)) ->
    exists p, fcf_normalize_plane [b32_minus mode_NE (g 3%nat 0%nat) (g k 0%nat); b32_minus mode_NE (g 3%nat 1%nat) (g k 1%nat); b32_minus mode_NE (g 3%nat 2%nat) (g k 2%nat); b32_minus mode_NE (g 3%nat 3%nat) (g k 3%nat)] = Ok (arr p) /\ near_unit p (face (vals g) (-1) k)).
  { intros k Hk HLk. assert (C : forall j, (j < 4)%nat -> okf32 41 (b32_minus mode_NE (g 3%nat j) (g k j)) /\ Rabs (val (b32_minus mode_NE (g 3%nat j) (g k j)) - (vals g 3 j + -1 * vals g k j)) <= uro * Rabs (vals g 3 j + -1 * vals g k j)).
    { intros j Hj. replace (vals g 3 j + -1 * vals g k j) with (vals g 3 j - vals g k j) by ring. apply (okf32_minus 40 _ _ (OG 3%nat j ltac:(lia) Hj) (OG k j ltac:(lia) Hj) ltac:(lia)). }
    apply plane_32; try (apply C; lia). exact HLk. }
  rewrite Em16 in HL. unfold faces in HL |- *.
  destruct (FP 0%nat ltac:(lia) (HL _ ltac:(left; reflexivity))) as (p0 & N0 & U0).
  destruct (FM 0%nat ltac:(lia) (HL _ ltac:(right; left; reflexivity))) as (p1 & N1 & U1).
  destruct (FP 1%nat ltac:(lia) (HL _ ltac:(right; right; left; reflexivity))) as (p2 & N2 & U2).
  destruct (FM 1%nat ltac:(lia) (HL _ ltac:(do 3 right; left; reflexivity))) as (p3 & N3 & U3).
  destruct (FP 2%nat ltac:(lia) (HL _ ltac:(do 4 right; left; reflexivity))) as (p4 & N4 & U4).
  destruct (FM 2%nat ltac:(lia) (HL _ ltac:(do 5 right; left; reflexivity))) as (p5 & N5 & U5).
  exists (arr p0, arr p1, arr p2, arr p3, arr p4, arr p5), [p0; p1; p2; p3; p4; p5]. split; [|split; [reflexivity|repeat constructor; assumption]].
  assert (VA : forall a b c d a' b' c' d' : f32, vec_add 4 [a; b; c; d] [a'; b'; c'; d'] = Ok [b32_plus mode_NE a a'; b32_plus mode_NE b b'; b32_plus mode_NE c c'; b32_plus mode_NE d d']) by reflexivity.
  assert (VS : forall a b c d a' b' c' d' : f32, vec_sub 4 [a; b; c; d] [a'; b'; c'; d'] = Ok [b32_minus mode_NE a a'; b32_minus mode_NE b b'; b32_minus mode_NE c c'; b32_minus mode_NE d d']) by reflexivity.
  rewrite !VA, !VS. cbn [bind].
  refine (eq_trans (bindE _ _ _ N0) _); cbv beta; refine (eq_trans (bindE _ _ _ N1) _); cbv beta; refine (eq_trans (bindE _ _ _ N2) _); cbv beta; refine (eq_trans (bindE _ _ _ N3) _); cbv beta; refine (eq_trans (bindE _ _ _ N4) _); cbv beta. refine (eq_trans (bindE _ _ _ N5) _). reflexivity.
Qed.
Print Assumptions C154_setup_planes_in_float.

(** ** Spheres, from the matrix to the verdict *)
(** The margin, in distance units: 21 half-ulps of the terms of the distance
    formula. *)
Definition setup_margin (h : hs) (p : V3) : R :=
  let '(x, y, z) := p in 21 / 2 ^ 24 * (termsR h p / len3R (fst h)) + (Rabs x + Rabs y + Rabs z + 6) / 2 ^ 149.

Lemma real_term v e x E m : 0 < m -> Rabs (v - e) <= 15 * uro * Rabs e + m -> E = e * x -> Rabs (v * x - E) <= 15 * uro * Rabs E + m * Rabs x.
Proof.
  intros Hm H ->. replace (v * x - e * x) with ((v - e) * x) by ring. rewrite !Rabs_mult. pose proof (Rabs_pos x).
  replace (15 * uro * (Rabs e * Rabs x) + m * Rabs x) with ((15 * uro * Rabs e + m) * Rabs x) by ring. apply Rmult_le_compat_r; assumption.
Qed.
Lemma termsR_unit a b c d x y z L : 0 < L ->
  termsR ((a, b, c), d) (x, y, z) / L = Rabs (a / L * x) + Rabs (b / L * y) + Rabs (c / L * z) + Rabs (d / L).
Proof.
  intros HL. cbn [termsR]. assert (E : forall e, Rabs (e / L) = Rabs e / L) by (intros e; unfold Rdiv; rewrite Rabs_mult, (Rabs_pos_eq (/ L)) by (left; apply Rinv_0_lt_compat; exact HL); reflexivity).
  replace (a / L * x) with (a * x / L) by (field; lra). replace (b / L * y) with (b * y / L) by (field; lra). replace (c / L * z) with (c * z / L) by (field; lra).
  rewrite !E. field. lra.
Qed.
Lemma eta2 : / 2 ^ 149 = 2 * eta.
Proof. unfold eta. replace (2 ^ 150) with (2 * 2 ^ 149) by (change 150%nat with (S 149); cbn [pow]; reflexivity). field. Qed.
Lemma near_hval p h q : 0 < len3R (fst h) -> near_unit p h ->
  let '(x, y, z) := q in let T := termsR h q / len3R (fst h) in
  sane4 p /\ Rabs (hval (hsv p) q - sdist h q) <= 15 * uro * T + (Rabs x + Rabs y + Rabs z + 1) * eta /\
  termsR (hsv p) q <= (1 + 15 * uro) * T + (Rabs x + Rabs y + Rabs z + 1) * eta.
Proof.
  destruct p as [[[a' b'] c'] d'], h as [[[a b] c] d], q as [[x y] z]. cbv zeta; cbn [fst]. intros HL NU. cbn [near_unit fst] in NU. set (L := len3R (a, b, c)) in *.
  destruct NU as ((SA & NA) & (SB & NB) & (SC & NC) & (SD & ND)). split; [exact (conj SA (conj SB (conj SC SD)))|].
  cbv zeta. match goal with |- context [15 * uro * ?T] => replace T with (Rabs (a / L * x) + Rabs (b / L * y) + Rabs (c / L * z) + Rabs (d / L)) by (symmetry; exact (termsR_unit a b c d x y z L HL)) end. unfold sdist, hval. cbn [hsv termsR fst snd dot3]. fold L.
  replace ((a * x + b * y + c * z + d) / L) with (a / L * x + b / L * y + c / L * z + d / L) by (field; lra).
  change (/ 2 ^ 150) with eta in *. unfold Rdiv at 2 in NA. unfold Rdiv at 2 in NB. unfold Rdiv at 2 in NC. unfold Rdiv at 2 in ND. change (/ 2 ^ 24) with uro in *.
  pose proof eta_pos as EP.
  pose proof (real_term _ _ x _ _ EP NA eq_refl) as TA. pose proof (real_term _ _ y _ _ EP NB eq_refl) as TB. pose proof (real_term _ _ z _ _ EP NC eq_refl) as TC.
  set (A := a / L * x) in *. set (B := b / L * y) in *. set (C := c / L * z) in *. set (D := d / L) in *.
  split.
  - replace (val a' * x + val b' * y + val c' * z + val d' - (A + B + C + D)) with ((val a' * x - A) + (val b' * y - B) + (val c' * z - C) + (val d' - D)) by ring.
    apply Rabs_le_inv in TA, TB, TC, ND. apply Rabs_le. split; lra.
  - apply abs_tri_err in TA, TB, TC, ND. lra.
Qed.
Lemma sdist_ball h c r q : 0 < len3R (fst h) -> in_ball c r q -> Rabs (sdist h q - sdist h c) <= r.
Proof.
  intros HL HB. unfold sdist. replace (hval h q / len3R (fst h) - hval h c / len3R (fst h)) with ((hval h q - hval h c) / len3R (fst h)) by (field; lra).
  rewrite (hval_diff h q c). replace (hval h c + dot3 (fst h) (sub3 q c) - hval h c) with (dot3 (fst h) (sub3 q c)) by ring.
  unfold Rdiv. rewrite Rabs_mult, (Rabs_pos_eq (/ _)) by (left; apply Rinv_0_lt_compat; exact HL).
  apply Rmult_le_reg_r with (len3R (fst h)); [exact HL|]. rewrite Rmult_assoc, Rinv_l, Rmult_1_r by lra.
  eapply Rle_trans; [apply len3_cs|]. rewrite (Rmult_comm r). apply Rmult_le_compat_l; [lra|exact HB].
Qed.
Lemma real_margin T X G S M : 0 <= T -> 0 <= X -> G <= (1 + 15 * uro) * T + (X + 1) * eta -> S <= 15 * uro * T + (X + 1) * eta ->
  M = 5 * uro * G + 4 * eta -> S + M <= 21 * uro * T + (X + 6) * (2 * eta).
Proof. rewrite uro_val. intros HT HX HG HS ->. pose proof eta_pos. assert (0 <= X * eta) by (apply Rmult_le_pos; lra). lra. Qed.
Lemma sphere_margin p h c : 0 < len3R (fst h) -> near_unit p h ->
  sane4 p /\ Rabs (hval (hsv p) c - sdist h c) + margin (hsv p) c <= setup_margin h c.
Proof.
  intros HL NU. pose proof (near_hval p h c HL NU) as H. destruct c as [[x y] z]. cbv zeta in H. destruct H as (S & H1 & H2). split; [exact S|].
  unfold margin, setup_margin. unfold Rdiv at 1 2 3 5. rewrite eta2. change (/ 2 ^ 150) with eta. change (/ 2 ^ 24) with uro.
  eapply real_margin; [| |exact H2|exact H1|reflexivity].
  - destruct h as [[[a b] c] d]. apply Rmult_le_pos; [|left; apply Rinv_0_lt_compat; exact HL]. cbn [termsR]. repeat apply Rplus_le_le_0_compat; apply Rabs_pos.
  - repeat apply Rplus_le_le_0_compat; apply Rabs_pos.
Qed.
Lemma Forall2_In_l {A B : Type} (Q : A -> B -> Prop) l l' a : Forall2 Q l l' -> In a l -> exists b, In b l' /\ Q a b.
Proof. induction 1 as [|x y l l' H F IH]; intros Ha; [destruct Ha|]. destruct Ha as [<-|Ha]; [exists y; split; [left; reflexivity|exact H]|]. destruct (IH Ha) as (b & Hb & Hq). exists b. split; [right; exact Hb|exact Hq]. Qed.
Lemma Forall2_In_r {A B : Type} (Q : A -> B -> Prop) l l' b : Forall2 Q l l' -> In b l' -> exists a, In a l /\ Q a b.
Proof. induction 1 as [|x y l l' H F IH]; intros Ha; [destruct Ha|]. destruct Ha as [<-|Ha]; [exists x; split; [left; reflexivity|exact H]|]. destruct (IH Ha) as (a & Hb & Hq). exists a. split; [right; exact Hb|exact Hq]. Qed.
Lemma pow_pos_inv n : 0 < / 2 ^ n.
Proof. apply Rinv_0_lt_compat, pow_lt. lra. Qed.

(** C154: setup and test_sphere in float against the exact clip volume of the
    matrix: NONE only if the whole sphere is behind one face up to the margin,
    FULL only if it is in front of every face up to the margin; and beyond the
    margin the verdict is the exact one. *)
Theorem C154_sphere_culling_end_to_end :
  forall (cfg : Cfg) (m : list f32) (g : nat -> nat -> f32) (x y z r : f32),
  repM 4 4 m g -> okm g -> (forall h, In h (faces (vals g)) -> / 2 ^ 16 <= len3R (fst h)) ->
  sane x -> sane y -> sane z -> sane r ->
  let c := (val x, val y, val z) in
  exists cl v, fcf_setup m = Ok cl /\ fc_test_sphere cl [x; y; z; r] = Ok v /\
  (v = V_NONE -> exists h, In h (faces (vals g)) /\ forall q, in_ball c (val r) q -> sdist h q <= setup_margin h c) /\
  (v = V_FULL -> forall h q, In h (faces (vals g)) -> in_ball c (val r) q -> - setup_margin h c <= sdist h q) /\
  (forall q, in_ball c (val r) q -> (forall h, In h (faces (vals g)) -> setup_margin h c < sdist h q) -> v <> V_NONE) /\
  ((exists h, In h (faces (vals g)) /\ sdist h c <= - val r - setup_margin h c) -> v = V_NONE) /\
  (0 < val r -> (forall h, In h (faces (vals g)) -> val r + setup_margin h c <= sdist h c) -> v = V_FULL).
Proof.
  intros cfg m g x y z r Hm HG HL Hx Hy Hz Hr c. destruct (C154_setup_planes_in_float cfg m g Hm HG HL) as (cl & P & E & EP & NU).
  assert (LP : forall h, In h (faces (vals g)) -> 0 < len3R (fst h)). { intros h Hh. eapply Rlt_le_trans; [apply pow_pos_inv|apply HL, Hh]. }
  assert (SP : forall p, In p P -> sane4 p). { intros p Hp. destruct (Forall2_In_l _ _ _ _ NU Hp) as (h & Hh & N). apply (sphere_margin p h c (LP h Hh) N). }
  destruct (C153_sphere_culling_in_float cl P x y z r EP SP Hx Hy Hz Hr) as (v & Ev & C1 & C2 & C3 & C4). fold c in C1, C2, C3, C4.
  exists cl, v. split; [exact E|]. split; [exact Ev|].
  assert (N : v = V_NONE -> exists h, In h (faces (vals g)) /\ forall q, in_ball c (val r) q -> sdist h q <= setup_margin h c).
  { intros Hv. destruct (C1 Hv) as (p & Hp & H). destruct (Forall2_In_l _ _ _ _ NU Hp) as (h & Hh & Nh). exists h. split; [exact Hh|].
    destruct (sphere_margin p h c (LP h Hh) Nh) as (_ & M). pose proof (Rabs_fact (hval (hsv p) c - sdist h c)). intros q Hq.
    pose proof (sdist_ball h c (val r) q (LP h Hh) Hq) as B. apply Rabs_le_inv in B. lra. }
  split; [exact N|]. split; [|split; [|split]].
  - intros Hv h q Hh Hq. destruct (Forall2_In_r _ _ _ _ NU Hh) as (p & Hp & Nh). specialize (C2 Hv p Hp).
    destruct (sphere_margin p h c (LP h Hh) Nh) as (_ & M). pose proof (Rabs_fact (hval (hsv p) c - sdist h c)).
    pose proof (sdist_ball h c (val r) q (LP h Hh) Hq) as B. apply Rabs_le_inv in B. lra.
  - intros q Hq Hin Hv. destruct (N Hv) as (h & Hh & H). specialize (H q Hq). specialize (Hin h Hh). lra.
  - intros (h & Hh & H). apply C3. destruct (Forall2_In_r _ _ _ _ NU Hh) as (p & Hp & Nh). exists p. split; [exact Hp|].
    destruct (sphere_margin p h c (LP h Hh) Nh) as (_ & M). pose proof (Rabs_fact (hval (hsv p) c - sdist h c)). lra.
  - intros R0 H. apply C4; [exact R0|]. intros p Hp. destruct (Forall2_In_l _ _ _ _ NU Hp) as (h & Hh & Nh). specialize (H h Hh).
    destruct (sphere_margin p h c (LP h Hh) Nh) as (_ & M). pose proof (Rabs_fact (hval (hsv p) c - sdist h c)). lra.
Qed.
Print Assumptions C154_sphere_culling_end_to_end.

(** ** Boxes, from the matrix to the verdict *)
(** The farthest point of the box from the origin, coordinate by coordinate. *)
Definition reach (s t : R) : R := Rmax (Rabs s) (Rabs t).
Definition setup_box_margin (h : hs) (x0 x1 y0 y1 z0 z1 : R) : R :=
  let X := reach x0 x1 in let Y := reach y0 y1 in let Z := reach z0 z1 in
  26 / 2 ^ 24 * (termsR h (X, Y, Z) / len3R (fst h)) + (X + Y + Z + 38) / 2 ^ 149.
Lemma reach_half s t : Rabs (s + t) / 2 + Rabs (t - s) / 2 = reach s t.
Proof. unfold reach, Rmax, Rabs. repeat match goal with |- context [Rcase_abs ?e] => destruct (Rcase_abs e) | |- context [Rle_dec ?a ?b] => destruct (Rle_dec a b) end; lra. Qed.
Lemma reach_pos s t : 0 <= reach s t.
Proof. eapply Rle_trans; [apply (Rabs_pos s)|apply Rmax_l]. Qed.
Lemma reach_in s t x : between_R s t x -> Rabs x <= reach s t.
Proof. unfold between_R, reach, Rmin, Rmax, Rabs. repeat match goal with |- context [Rcase_abs ?e] => destruct (Rcase_abs e) | |- context [Rle_dec ?a ?b] => destruct (Rle_dec a b) end; lra. Qed.
Lemma real_box_margin T X G S M D : 0 <= T -> 0 <= X -> 0 <= D <= 4 -> G <= (1 + 15 * uro) * T + (X + 1) * eta -> S <= 15 * uro * T + (X + 1) * eta ->
  M = 10 * uro * G + (20 * D + 10) * eta -> D <= 31 / 10 -> S + M <= 26 * uro * T + (X + 38) * (2 * eta).
Proof.
  rewrite uro_val. intros HT HX HD HG HS -> HD'. pose proof eta_pos. assert (0 <= X * eta) by (apply Rmult_le_pos; lra).
  assert (D * eta <= 31 / 10 * eta) by (apply Rmult_le_compat_r; lra). lra.
Qed.
Lemma comp3_le a b c : Rabs a <= len3R (a, b, c) /\ Rabs b <= len3R (a, b, c) /\ Rabs c <= len3R (a, b, c).
Proof.
  assert (K : forall x s, x * x <= s -> Rabs x <= sqrt s). { intros x s H. rewrite <- (sqrt_Rsqr_abs x). apply sqrt_le_1_alt. exact H. }
  unfold len3R. cbn [dot3]. repeat split; apply K; nra.
Qed.
Lemma termsR_mono h q q' : (let '(x, y, z) := q in let '(x', y', z') := q' in Rabs x <= x' /\ Rabs y <= y' /\ Rabs z <= z') -> termsR h q <= termsR h q'.
Proof.
  destruct h as [[[a b] c] d], q as [[x y] z], q' as [[x' y'] z']. intros (HX & HY & HZ). cbn [termsR]. rewrite !Rabs_mult.
  assert (K : forall u v w, Rabs v <= w -> Rabs u * Rabs v <= Rabs u * Rabs w).
  { intros u v w H. apply Rmult_le_compat_l; [apply Rabs_pos|]. pose proof (Rle_abs w). lra. }
  pose proof (K a x x' HX). pose proof (K b y y' HY). pose proof (K c z z' HZ). lra.
Qed.
Lemma box_margin_terms h x0 x1 y0 y1 z0 z1 : box_margin h x0 x1 y0 y1 z0 z1 =
  10 * uro * termsR h (reach x0 x1, reach y0 y1, reach z0 z1) + (20 * (Rabs (fst (fst (fst h))) + Rabs (snd (fst (fst h))) + Rabs (snd (fst h))) + 10) * eta.
Proof.
  destruct h as [[[a b] c] d]. cbn [box_margin termsR fst snd]. rewrite !reach_half, !Rabs_mult.
  rewrite (Rabs_pos_eq (reach x0 x1)), (Rabs_pos_eq (reach y0 y1)), (Rabs_pos_eq (reach z0 z1)) by apply reach_pos. reflexivity.
Qed.
Lemma near_normal_sum p h : 0 < len3R (fst h) -> near_unit p h ->
  Rabs (fst (fst (fst (hsv p)))) + Rabs (snd (fst (fst (hsv p)))) + Rabs (snd (fst (hsv p))) <= 31 / 10.
Proof.
  destruct p as [[[a' b'] c'] d'], h as [[[a b] c] d]. cbn [fst]. intros HL NU. cbn [near_unit fst] in NU. pose proof (comp3_le a b c) as (CA & CB & CC). set (L := len3R (a, b, c)) in *.
  destruct NU as ((_ & NA) & (_ & NB) & (_ & NC) & _). cbn [hsv fst snd].
  assert (K : forall e, Rabs e <= L -> Rabs (e / L) <= 1).
  { intros e H. unfold Rdiv. rewrite Rabs_mult, (Rabs_pos_eq (/ L)) by (left; apply Rinv_0_lt_compat; exact HL). apply Rmult_le_reg_r with L; [exact HL|]. rewrite Rmult_assoc, Rinv_l by lra. lra. }
  apply K in CA, CB, CC. change (/ 2 ^ 150) with eta in *. unfold Rdiv at 2 in NA. unfold Rdiv at 2 in NB. unfold Rdiv at 2 in NC. change (/ 2 ^ 24) with uro in *.
  apply abs_tri_err in NA, NB, NC. assert (EU : eta <= uro).
  { rewrite <- eta_bpow. assert (bp (-149) <= bp (-24)) by (apply bpow_le; lia). pose proof (bpow_ge_0 radix2 (-149)). assert (bp (-24) = / 16777216) by (cbn; lra). rewrite uro_val. lra. }
  rewrite uro_val in *. lra.
Qed.
Lemma box_margin_setup p h x0 x1 y0 y1 z0 z1 q : 0 < len3R (fst h) -> near_unit p h -> in_span x0 x1 y0 y1 z0 z1 q ->
  Rabs (hval (hsv p) q - sdist h q) + box_margin (hsv p) x0 x1 y0 y1 z0 z1 <= setup_box_margin h x0 x1 y0 y1 z0 z1.
Proof.
  intros HL NU HQ. pose proof (near_hval p h q HL NU) as H. pose proof (near_hval p h (reach x0 x1, reach y0 y1, reach z0 z1) HL NU) as G.
  cbv zeta in G. destruct G as (_ & _ & G). rewrite (Rabs_pos_eq (reach x0 x1)), (Rabs_pos_eq (reach y0 y1)), (Rabs_pos_eq (reach z0 z1)) in G by apply reach_pos.
  assert (TM : termsR h q <= termsR h (reach x0 x1, reach y0 y1, reach z0 z1)).
  { apply termsR_mono. destruct q as [[x y] z]. destruct HQ as (QX & QY & QZ). repeat split; apply reach_in; assumption. }
  assert (TM' : termsR h q / len3R (fst h) <= termsR h (reach x0 x1, reach y0 y1, reach z0 z1) / len3R (fst h)).
  { apply Rmult_le_compat_r; [left; apply Rinv_0_lt_compat; exact HL|exact TM]. }
  destruct q as [[x y] z]. cbv zeta in H. destruct H as (_ & H & _). destruct HQ as (QX & QY & QZ). apply reach_in in QX, QY, QZ.
  pose proof (reach_pos x0 x1) as PX. pose proof (reach_pos y0 y1) as PY. pose proof (reach_pos z0 z1) as PZ.
  rewrite box_margin_terms. unfold setup_box_margin. cbv zeta. unfold Rdiv at 1 3. rewrite eta2. change (/ 2 ^ 24) with uro.
  pose proof (near_normal_sum p h HL NU) as NS.
  set (T := termsR h (reach x0 x1, reach y0 y1, reach z0 z1) / len3R (fst h)) in *. set (T' := termsR h (x, y, z) / len3R (fst h)) in *.
  eapply (real_box_margin T (reach x0 x1 + reach y0 y1 + reach z0 z1)); [| | |exact G| |reflexivity|exact NS].
  - unfold T. destruct h as [[[a b] c] d]. apply Rmult_le_pos; [|left; apply Rinv_0_lt_compat; exact HL]. cbn [termsR]. repeat apply Rplus_le_le_0_compat; apply Rabs_pos.
  - lra.
  - split; [repeat apply Rplus_le_le_0_compat; apply Rabs_pos|lra].
  - eapply Rle_trans; [exact H|]. pose proof uro_pos. pose proof eta_pos.
    apply Rplus_le_compat; [apply Rmult_le_compat_l; [lra|exact TM']|]. apply Rmult_le_compat_r; lra.
Qed.

(** C154: setup and test_aabb in float against the exact clip volume. *)
Theorem C154_box_culling_end_to_end :
  forall (cfg : Cfg) (wide : bool) (m : list f32) (g : nat -> nat -> f32) (x0 x1 y0 y1 z0 z1 : f32),
  repM 4 4 m g -> okm g -> (forall h, In h (faces (vals g)) -> / 2 ^ 16 <= len3R (fst h)) ->
  sane x0 -> sane x1 -> sane y0 -> sane y1 -> sane z0 -> sane z1 ->
  let box := in_span (val x0) (val x1) (val y0) (val y1) (val z0) (val z1) in
  let mg := fun h => setup_box_margin h (val x0) (val x1) (val y0) (val y1) (val z0) (val z1) in
  exists cl v, fcf_setup m = Ok cl /\ fcf_test_aabb wide cl [x0; x1] [y0; y1] [z0; z1] = Ok v /\
  (v = V_NONE -> exists h, In h (faces (vals g)) /\ forall q, box q -> sdist h q <= mg h) /\
  (v = V_FULL -> forall h q, In h (faces (vals g)) -> box q -> - mg h <= sdist h q) /\
  (forall q, box q -> (forall h, In h (faces (vals g)) -> mg h < sdist h q) -> v <> V_NONE) /\
  ((exists h, In h (faces (vals g)) /\ forall q, box q -> sdist h q < - mg h) -> v = V_NONE) /\
  ((forall h q, In h (faces (vals g)) -> box q -> mg h <= sdist h q) -> v = V_FULL).
Proof.
  intros cfg wide m g x0 x1 y0 y1 z0 z1 Hm HG HL X0 X1 Y0 Y1 Z0 Z1 box mg. destruct (C154_setup_planes_in_float cfg m g Hm HG HL) as (cl & P & E & EP & NU).
  assert (LP : forall h, In h (faces (vals g)) -> 0 < len3R (fst h)). { intros h Hh. eapply Rlt_le_trans; [apply pow_pos_inv|apply HL, Hh]. }
  assert (SP : forall p, In p P -> sane4 p). { intros p Hp. destruct (Forall2_In_l _ _ _ _ NU Hp) as (h & Hh & N). apply (sphere_margin p h (0, 0, 0) (LP h Hh) N). }
  destruct (C153_box_culling_in_float cfg wide cl P x0 x1 y0 y1 z0 z1 EP SP X0 X1 Y0 Y1 Z0 Z1) as (v & Ev & C1 & C2 & C3 & C4). fold box in C1, C2, C3, C4.
  exists cl, v. split; [exact E|]. split; [exact Ev|].
  assert (BM : forall p h q, In h (faces (vals g)) -> near_unit p h -> box q ->
    Rabs (hval (hsv p) q - sdist h q) + box_margin (hsv p) (val x0) (val x1) (val y0) (val y1) (val z0) (val z1) <= mg h).
  { intros p h q Hh Nh Hq. apply box_margin_setup; [apply LP, Hh|exact Nh|exact Hq]. }
  assert (N : v = V_NONE -> exists h, In h (faces (vals g)) /\ forall q, box q -> sdist h q <= mg h).
  { intros Hv. destruct (C1 Hv) as (p & Hp & H). destruct (Forall2_In_l _ _ _ _ NU Hp) as (h & Hh & Nh). exists h. split; [exact Hh|].
    intros q Hq. specialize (H q Hq). specialize (BM p h q Hh Nh Hq). pose proof (Rabs_fact (hval (hsv p) q - sdist h q)). cbv beta in *. lra. }
  split; [exact N|]. split; [|split; [|split]].
  - intros Hv h q Hh Hq. destruct (Forall2_In_r _ _ _ _ NU Hh) as (p & Hp & Nh). specialize (C2 Hv p q Hp Hq).
    specialize (BM p h q Hh Nh Hq). pose proof (Rabs_fact (hval (hsv p) q - sdist h q)). cbv beta in *. lra.
  - intros q Hq Hin Hv. destruct (N Hv) as (h & Hh & H). specialize (H q Hq). specialize (Hin h Hh). lra.
  - intros (h & Hh & H). apply C3. destruct (Forall2_In_r _ _ _ _ NU Hh) as (p & Hp & Nh). exists p. split; [exact Hp|].
    intros q Hq. specialize (H q Hq). specialize (BM p h q Hh Nh Hq). pose proof (Rabs_fact (hval (hsv p) q - sdist h q)). cbv beta in *. lra.
  - intros H. apply C4. intros p q Hp Hq. destruct (Forall2_In_l _ _ _ _ NU Hp) as (h & Hh & Nh). specialize (H h q Hh Hq).
    specialize (BM p h q Hh Nh Hq). pose proof (Rabs_fact (hval (hsv p) q - sdist h q)). cbv beta in *. lra.
Qed.
Print Assumptions C154_box_culling_end_to_end.

(** The identity as projection matrix: the clip volume is the cube |x|, |y|, |z|
    <= 1. *)
Definition id32 (i j : nat) : f32 := if Nat.eqb i j then f32_one else f32_zero.
Definition id32m : list f32 :=
  [f32_one; f32_zero; f32_zero; f32_zero; f32_zero; f32_one; f32_zero; f32_zero; f32_zero; f32_zero; f32_one; f32_zero; f32_zero; f32_zero; f32_zero; f32_one].
Example C154_hypotheses_met :
  repM 4 4 id32m id32 /\ okm id32 /\ (forall h, In h (faces (vals id32)) -> / 2 ^ 16 <= len3R (fst h)) /\
  sane f32_zero /\ sane f32_half /\ sane f32_four /\ sane f32_one /\
  (forall (cfg : Cfg) (wide : bool),
   (cl <- fcf_setup id32m ;; fc_test_sphere cl [f32_zero; f32_zero; f32_zero; f32_half]) = Ok V_FULL /\
   (cl <- fcf_setup id32m ;; fc_test_sphere cl [f32_one; f32_zero; f32_zero; f32_half]) = Ok V_PARTIAL /\
   (cl <- fcf_setup id32m ;; fc_test_sphere cl [f32_four; f32_zero; f32_zero; f32_half]) = Ok V_NONE /\
   (cl <- fcf_setup id32m ;; fcf_test_aabb wide cl [f32_zero; f32_half] [f32_zero; f32_half] [f32_zero; f32_half]) = Ok V_FULL).
Proof.
  split. { split; [reflexivity|]. intros i j Hi Hj. destruct i as [|[|[|[|i]]]]; try (exfalso; lia); destruct j as [|[|[|[|j]]]]; try (exfalso; lia); reflexivity. }
  split. { intros i j _ _. assert (sane (id32 i j) -> fin (id32 i j) /\ Rabs (val (id32 i j)) <= 2 ^ 40) as K.
    { intros _. unfold id32. destruct (Nat.eqb i j); (split; [reflexivity|]).
      - rewrite val_one, Rabs_R1. apply pow_R1_Rle. lra.
      - change (val f32_zero) with 0. rewrite Rabs_R0. apply pow_le. lra. }
    apply K. unfold id32. destruct (Nat.eqb i j); [apply sane_one|apply sane_zero]. }
  split. { intros h Hh. assert (E : len3R (fst h) = 1).
    { unfold faces in Hh. cbn [In] in Hh. destruct Hh as [<-|[<-|[<-|[<-|[<-|[<-|[]]]]]]]; unfold face, vals, id32; cbn [fst snd Nat.eqb]; rewrite ?val_one; change (val f32_zero) with 0;
      unfold len3R; cbn [dot3]; match goal with |- sqrt ?e = _ => replace e with 1 by ring end; apply sqrt_1. }
    rewrite E, <- Rinv_1. apply Rinv_le_contravar; [lra|]. apply pow_R1_Rle. lra. }
  split; [apply sane_zero|]. split; [apply sane_half|]. split.
  { split; [reflexivity|]. assert (E : B2FF 24 128 f32_four = F754_finite false 8388608 (-21)) by reflexivity.
    assert (V : val f32_four = 4). { unfold val. destruct f32_four as [s|s|s p0 H0|s m e H]; try discriminate E. injection E as -> -> ->. cbn. unfold F2R. cbn. lra. }
    rewrite V, Rabs_pos_eq by lra. replace 4 with (2 ^ 2) by ring. apply Rle_pow; [lra|lia]. }
  split; [apply sane_one|]. intros cfg wide. destruct wide; repeat split; vm_compute; reflexivity.
Qed.
