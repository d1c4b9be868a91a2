(** Property C192: Vector::rotate( angle, axis ) in float. *)
From Coq Require Import ZArith Reals Lra Psatz List.
From Flocq Require Import Core.Core IEEE754.BinarySingleNaN IEEE754.Binary IEEE754.Bits.
From Verif Require Import InstF InstF32 MVector MFloat LVector LMatrix LVector2 Spec LSum LVectorR LVecProps LVecProps2 PMatrix3 PF32 LF32 PF32b LExprF Spec10f LExt32 PAabb PRayF32 PViewF32 LNormal MVecRotF PNormal32 LRot PRotF32 LVecRot.
Import ListNotations.
Local Open Scope R_scope.
Local Open Scope list_scope.
Local Existing Instance F32Scalar.
Local Notation bp := (bpow radix2).
Local Notation "a *' b" := (b32_mult mode_NE a b) (at level 40, left associativity).
Local Notation "a +' b" := (b32_plus mode_NE a b) (at level 50, left associativity).
Local Notation "a -' b" := (b32_minus mode_NE a b) (at level 50, left associativity).

(** The nine cells, in the order of the code. *)
Definition rotV (c s x y z : f32) (i j : nat) : f32 :=
  let k := f32_one -' c in
  nth j (nth i
    [[c +' k *' x *' x; k *' x *' y -' z *' s; k *' x *' z +' y *' s];
     [k *' x *' y +' z *' s; c +' k *' y *' y; k *' y *' z -' x *' s];
     [k *' x *' z -' y *' s; k *' y *' z +' x *' s; c +' k *' z *' z]] []) f32_zero.
Definition rowV (m : nat -> nat -> f32) (i : nat) (v : f32 * f32 * f32) : f32 :=
  let '(x, y, z) := v in (m i 0%nat *' x +' m i 1%nat *' y) +' m i 2%nat *' z.
Lemma vecf_rotate_F {cfg : Cfg} {TT : Trig f32} (v axis a : f32 * f32 * f32) (t l : f32) : vecf_normalize 3 (l3 axis) = Ok (l, l3 a) ->
  vecf_rotate (l3 v) t (l3 axis) = Ok (let '(x, y, z) := a in let m := rotV (scos t) (ssin t) x y z in l3 (rowV m 0 v, rowV m 1 v, rowV m 2 v)).
Proof.
  intros E. unfold vecf_rotate. rewrite E. cbn [bind]. destruct a as [[x y] z], v as [[p q] r]. reflexivity.
Qed.
Section Cells.
Context (c s : f32) (t d : R) (Hd : 0 <= d <= / 100) (Fc : fin c) (Fs : fin s).
Context (Hc : Rabs (val c - cos t) <= d) (Hs : Rabs (val s - sin t) <= d).
Lemma diag_V w : fin w -> Rabs (val w) <= 101 / 100 ->
  okf32 5 (c +' (f32_one -' c) *' w *' w) /\
  Rabs (val (c +' (f32_one -' c) *' w *' w) - (cos t + (1 - cos t) * (val w * val w))) <= 3 * d + 16 * uro.
Proof.
  intros Fw Bw. destruct (k_ok c t d Hd Fc Hc) as (K & EK). pose proof (ok1 w Fw Bw) as W. pose proof (trig_ok d Hd _ _ Fc (cos1 t) Hc) as C.
  destruct (okf32_mult 2 1 _ _ K W ltac:(lia)) as (Q & EQ).
  destruct (okf32_mult 3 1 _ _ Q W ltac:(lia)) as (P & EP).
  destruct (okf32_plus 4 c _ (okf32_le 1 4 _ C ltac:(lia)) P ltac:(lia)) as (R0 & ER). split; [apply R0|].
  exact (cell_diag2 uro eta d (cos t) (val c) _ uro_small ee Hd (cos1 t) Hc EK (val w) _ _ _ Bw EQ EP ER).
Qed.
Lemma off_V a b w : fin a -> fin b -> fin w -> Rabs (val a) <= 101 / 100 -> Rabs (val b) <= 101 / 100 -> Rabs (val w) <= 101 / 100 ->
  (okf32 5 ((f32_one -' c) *' a *' b +' w *' s) /\
   Rabs (val ((f32_one -' c) *' a *' b +' w *' s) - ((1 - cos t) * val a * val b + sin t * val w)) <= 3 * d + 16 * uro) /\
  (okf32 5 ((f32_one -' c) *' a *' b -' w *' s) /\
   Rabs (val ((f32_one -' c) *' a *' b -' w *' s) - ((1 - cos t) * val a * val b - sin t * val w)) <= 3 * d + 16 * uro).
Proof.
  intros Fa Fb Fw Ba Bb Bw. destruct (k_ok c t d Hd Fc Hc) as (K & EK). pose proof (trig_ok d Hd _ _ Fs (sin1 t) Hs) as S1.
  destruct (okf32_mult 2 1 _ _ K (ok1 a Fa Ba) ltac:(lia)) as (Q & EQ).
  destruct (okf32_mult 3 1 _ _ Q (ok1 b Fb Bb) ltac:(lia)) as (P & EP).
  destruct (okf32_mult 1 1 _ _ (ok1 w Fw Bw) S1 ltac:(lia)) as (W & EW). apply (okf32_le 2 4) in W; [|lia].
  destruct (okf32_plus 4 _ _ P W ltac:(lia)) as (R1 & E1). destruct (okf32_minus 4 _ _ P W ltac:(lia)) as (R2 & E2).
  rewrite (Rmult_comm (val w) (val s)) in EW.
  destruct (cell_off uro eta d (cos t) (sin t) (val c) (val s) _ uro_small ee Hd (cos1 t) (sin1 t) Hc Hs EK (val a) (val b) (val w) _ _ _ (val ((f32_one -' c) *' a *' b +' w *' s)) Ba Bb Bw EQ EP EW) as (G1 & _).
  destruct (cell_off uro eta d (cos t) (sin t) (val c) (val s) _ uro_small ee Hd (cos1 t) (sin1 t) Hc Hs EK (val a) (val b) (val w) _ _ _ (val ((f32_one -' c) *' a *' b -' w *' s)) Ba Bb Bw EQ EP EW) as (_ & G2).
  split; (split; [first [exact R1|exact R2]|]); [apply G1; exact E1|apply G2; exact E2].
Qed.
Lemma rotV_F x y z i j : fin x -> fin y -> fin z -> Rabs (val x) <= 101 / 100 -> Rabs (val y) <= 101 / 100 -> Rabs (val z) <= 101 / 100 ->
  (i < 3)%nat -> (j < 3)%nat -> okf32 5 (rotV c s x y z i j) /\
  Rabs (val (rotV c s x y z i j) - rotF (val x, val y, val z) t i j) <= 3 * d + 16 * uro.
Proof.
  intros Fx Fy Fz Bx By Bz Hi Hj.
  destruct i as [|[|[|i]]]; [| | |lia]; (destruct j as [|[|[|j]]]; [| | |lia]); cbn [rotV rotF nth];
    first [apply diag_V; assumption|apply off_V; assumption].
Qed.
End Cells.

(** Rows: fl(fl(fl(m0 x) + fl(m1 y)) + fl(m2 z)). *)
Lemma rowV_F (m : nat -> nat -> f32) (A : nat -> nat -> R) (i : nat) (v : f32 * f32 * f32) (g : R) : 0 <= g <= / 10 ->
  (forall j, (j < 3)%nat -> okf32 5 (m i j) /\ Rabs (val (m i j) - A i j) <= g /\ Rabs (A i j) <= 3) ->
  (forall k, (k < 3)%nat -> okf32 100 (comp k v)) ->
  fin (rowV m i v) /\
  Rabs (val (rowV m i v) - (A i 0%nat * val (comp 0 v) + A i 1%nat * val (comp 1 v) + A i 2%nat * val (comp 2 v))) <=
    (g + 10 * uro) * (Rabs (val (comp 0 v)) + Rabs (val (comp 1 v)) + Rabs (val (comp 2 v))) + 4 * eta.
Proof.
  intros Hg HM HV. destruct v as [[x y] z]. cbn [rowV].
  pose proof (HV 0%nat ltac:(lia)) as V0. pose proof (HV 1%nat ltac:(lia)) as V1. pose proof (HV 2%nat ltac:(lia)) as V2. cbn [comp fst snd] in *.
  destruct (HM 0%nat ltac:(lia)) as (O0 & E0 & B0). destruct (HM 1%nat ltac:(lia)) as (O1 & E1 & B1). destruct (HM 2%nat ltac:(lia)) as (O2 & E2 & B2).
  destruct (okf32_mult 5 100 _ _ O0 V0 ltac:(lia)) as (P0 & F0). destruct (okf32_mult 5 100 _ _ O1 V1 ltac:(lia)) as (P1 & F1).
  destruct (okf32_mult 5 100 _ _ O2 V2 ltac:(lia)) as (P2 & F2). apply (okf32_le 105 106) in P2; [|lia].
  destruct (okf32_plus 105 _ _ P0 P1 ltac:(lia)) as (Q & G1). destruct (okf32_plus 106 _ _ Q P2 ltac:(lia)) as ((FR & _) & G2).
  split; [exact FR|].
  exact (row_err uro eta g _ _ _ _ _ _ _ _ _ _ _ _ _ _ uro_small eta_nn Hg B0 B1 B2 E0 E1 E2 F0 F1 F2 G1 G2).
Qed.

(** The components of a unit vector. *)
Lemma unit_comp (a : V3) : 0 < len3R a -> let q := scale3 (/ len3R a) a in
  len3R q = 1 /\ Rabs (fst (fst q)) <= 1 /\ Rabs (snd (fst q)) <= 1 /\ Rabs (snd q) <= 1.
Proof.
  intros HL q. assert (E : len3R q = 1) by (apply len3_unit; lra). split; [exact E|]. destruct q as [[x y] z]. cbn [fst snd].
  destruct (len3_comp x y z) as (A & B & C). rewrite E in A, B, C. tauto.
Qed.
Lemma rot_rows (q p : V3) (t : R) : let A := rotF q t in
  rodrigues q t p = (let '(x, y, z) := p in (A 0%nat 0%nat * x + A 0%nat 1%nat * y + A 0%nat 2%nat * z, A 1%nat 0%nat * x + A 1%nat 1%nat * y + A 1%nat 2%nat * z, A 2%nat 0%nat * x + A 2%nat 1%nat * y + A 2%nat 2%nat * z)).
Proof.
  destruct q as [[a b] c], p as [[x y] z]. unfold rodrigues, cross3, scale3, add3, dot3. cbn [rotF nth]. f_equal; [f_equal|]; ring.
Qed.

(** C192: the result is within (10 d + 268 / 2^24) |v| of the exact rotation of
    v about the direction of the axis, where d is the accuracy of the platform's
    sine and cosine; the length is preserved to the same accuracy. *)
Theorem C192_float_vec_rotate :
  forall (cfg : Cfg) (TT : Trig f32) (d : R) (v axis : f32 * f32 * f32) (t : f32),
  0 <= d <= / 100 -> good_trig TT d -> fin t ->
  (forall k, (k < 3)%nat -> fin (comp k v) /\ Rabs (val (comp k v)) <= 2 ^ 100) ->
  (forall k, (k < 3)%nat -> fin (comp k axis) /\ Rabs (val (comp k axis)) <= 2 ^ 50) ->
  let a := vals axis in
  / 2 ^ 50 <= len3R a ->
  let B := (10 * d + 268 / 2 ^ 24) * len3R (vals v) + 7 / 2 ^ 150 in
  exists r, vecf_rotate (l3 v) t (l3 axis) = Ok (l3 r) /\
  (forall k, (k < 3)%nat -> fin (comp k r)) /\
  len3R (sub3 (vals r) (rodrigues (scale3 (/ len3R a) a) (val t) (vals v))) <= B /\
  Rabs (len3R (vals r) - len3R (vals v)) <= B.
Proof.
  intros cfg TT d v axis t Hd GT Ft HV HA a HL B. destruct (GT t Ft) as (Fs & Fc & Es & Ec).
  destruct (normalize3 cfg axis HA HL) as (l & m & EN & HM & _). fold a in HM.
  assert (LP : 0 < len3R a) by (eapply Rlt_le_trans; [|exact HL]; apply Rinv_0_lt_compat, pow_lt; lra).
  destruct (unit_comp a LP) as (QU & Q0 & Q1 & Q2). set (q := scale3 (/ len3R a) a) in *.
  pose proof (vecf_rotate_F (cfg := cfg) (TT := TT) v axis m t l EN) as ER.
  pose proof uro_small as U1. pose proof ee as E1.
  (* the normalised axis *)
  assert (AX : forall k, (k < 3)%nat -> fin (comp k m) /\ Rabs (val (comp k m) - comp k q) <= 12 * uro + eta /\ Rabs (comp k q) <= 1).
  { intros k Hk. destruct (HM k Hk) as (F & E). split; [exact F|].
    assert (EQ : val (comp k axis) / len3R a = comp k q).
    { unfold q, a. destruct axis as [[x y] z]. destruct k as [|[|[|k]]]; try lia; unfold Rdiv; cbn [comp fst snd vals scale3]; apply Rmult_comm. }
    rewrite EQ in E. assert (BQ : Rabs (comp k q) <= 1) by (destruct k as [|[|[|k]]]; try lia; assumption). split; [|exact BQ].
    eapply Rle_trans; [exact E|]. apply Rplus_le_compat_r. rewrite <- (Rmult_1_r (12 * uro)) at 2. apply Rmult_le_compat_l; lra. }
  clearbody q. destruct q as [[qx qy] qz]. destruct m as [[x y] z].
  destruct (AX 0%nat ltac:(lia)) as (Fx & Ex & Bx). destruct (AX 1%nat ltac:(lia)) as (Fy & Ey & By). destruct (AX 2%nat ltac:(lia)) as (Fz & Ez & Bz). cbn [comp fst snd] in *.
  assert (IV : forall p w, Rabs (p - w) <= 12 * uro + eta -> Rabs w <= 1 -> Rabs p <= 101 / 100).
  { intros p w P W. replace p with ((p - w) + w) by ring. eapply Rle_trans; [apply Rabs_triang|]. lra. }
  set (mm := rotV (scos t) (ssin t) x y z) in *. set (A := rotF (qx, qy, qz) (val t)).
  set (g := 3 * d + 77 * uro).
  assert (CE : forall i j, (i < 3)%nat -> (j < 3)%nat -> okf32 5 (mm i j) /\ Rabs (val (mm i j) - A i j) <= g /\ Rabs (A i j) <= 3).
  { intros i j Hi Hj.
    destruct (rotV_F (scos t) (ssin t) (val t) d Hd Fc Fs Ec Es x y z i j Fx Fy Fz (IV _ _ Ex Bx) (IV _ _ Ey By) (IV _ _ Ez Bz) Hi Hj) as (O & E). fold mm in O, E.
    destruct (rot_axis_err (val x) (val y) (val z) qx qy qz (val t) (12 * uro + eta) i j ltac:(lra) Hi Hj Bx By Bz Ex Ey Ez) as (E2 & B2).
    split; [exact O|]. split; [|exact B2].
    match goal with |- Rabs (?p - ?b) <= _ => replace (p - b) with ((p - rotF (val x, val y, val z) (val t) i j) + (rotF (val x, val y, val z) (val t) i j - b)) by ring end.
    eapply Rle_trans; [apply tri; [exact E|exact E2]|]. unfold g. lra. }
  assert (HG : 0 <= g <= / 10) by (unfold g; lra).
  assert (OV : forall k, (k < 3)%nat -> okf32 100 (comp k v)).
  { intros k Hk. destruct (HV k Hk) as (F & Bk). split; [exact F|]. rewrite (bpow_pow 100). exact Bk. }
  assert (RW : forall i, (i < 3)%nat -> fin (rowV mm i v) /\
     Rabs (val (rowV mm i v) - (A i 0%nat * val (comp 0 v) + A i 1%nat * val (comp 1 v) + A i 2%nat * val (comp 2 v))) <=
       (g + 10 * uro) * (Rabs (val (comp 0 v)) + Rabs (val (comp 1 v)) + Rabs (val (comp 2 v))) + 4 * eta).
  { intros i Hi. apply rowV_F; [exact HG| |exact OV]. intros j Hj. apply CE; assumption. }
  destruct (RW 0%nat ltac:(lia)) as (F0 & R0). destruct (RW 1%nat ltac:(lia)) as (F1 & R1). destruct (RW 2%nat ltac:(lia)) as (F2 & R2).
  exists (rowV mm 0 v, rowV mm 1 v, rowV mm 2 v). split; [exact ER|].
  assert (SUB : len3R (sub3 (vals (rowV mm 0 v, rowV mm 1 v, rowV mm 2 v)) (rodrigues (qx, qy, qz) (val t) (vals v))) <= B).
  { rewrite rot_rows. fold A. clear ER. destruct v as [[p1 p2] p3]. cbn [comp fst snd vals sub3] in *.
    eapply Rle_trans; [apply (vec_err _ _ _ (val p1) (val p2) (val p3) (g + 10 * uro) (4 * eta)); [lra|lra|]|].
    - cbv zeta. split; [exact R0|]. split; [exact R1|exact R2].
    - unfold B. cbn [vals]. replace (268 / 2 ^ 24) with (268 * uro) by (unfold uro; field; apply pow_nonzero; lra).
      replace (7 / 2 ^ 150) with (7 * eta) by (unfold eta, Rdiv; ring).
      assert (307 / 100 * (g + 10 * uro) * len3R (val p1, val p2, val p3) <= (10 * d + 268 * uro) * len3R (val p1, val p2, val p3)).
      { apply Rmult_le_compat_r; [apply len3_nonneg|]. unfold g. lra. }
      lra. }
  split; [|split; [exact SUB|]].
  - intros k Hk. destruct k as [|[|[|k]]]; try lia; cbn [comp fst snd]; assumption.
  - set (P := rodrigues (qx, qy, qz) (val t) (vals v)) in *.
    assert (EP : len3R P = len3R (vals v)).
    { unfold len3R, P. f_equal. apply rodrigues_dot. rewrite <- len3_sq, QU. lra. }
    rewrite <- EP. pose proof (len_sub_ge (vals (rowV mm 0 v, rowV mm 1 v, rowV mm 2 v)) P) as G1.
    pose proof (len_sub_ge P (vals (rowV mm 0 v, rowV mm 1 v, rowV mm 2 v))) as G2. rewrite len_sub_sym in G2.
    apply Rabs_le. lra.
Qed.
Print Assumptions C192_float_vec_rotate.

Definition ev : f32 * f32 * f32 := (f32_one, f32_two, f32_zero).
Definition ea : f32 * f32 * f32 := (f32_zero, f32_zero, f32_two).
Example C192_hypotheses_met :
  good_trig grid_trig (/ 2 ^ 23) /\ 0 <= / 2 ^ 23 <= / 100 /\ fin f32_one /\
  (forall k, (k < 3)%nat -> fin (comp k ev) /\ Rabs (val (comp k ev)) <= 2 ^ 100) /\
  (forall k, (k < 3)%nat -> fin (comp k ea) /\ Rabs (val (comp k ea)) <= 2 ^ 50) /\
  / 2 ^ 50 <= len3R (vals ea).
Proof.
  assert (V1 : val f32_one = 1) by apply val_one. assert (V0 : val f32_zero = 0) by reflexivity. assert (V2 : val f32_two = 2) by apply val_two.
  assert (P : 2 <= 2 ^ 50) by (rewrite <- (pow_1 2) at 1; apply Rle_pow; [lra|lia]).
  assert (P' : 2 <= 2 ^ 100) by (rewrite <- (pow_1 2) at 1; apply Rle_pow; [lra|lia]).
  split; [exact grid_trig_good|]. split; [lra|]. split; [reflexivity|]. split; [|split].
  - intros k Hk. destruct k as [|[|[|k]]]; try lia; cbn [ev comp fst snd]; (split; [reflexivity|]); rewrite ?V1, ?V0, ?V2; apply Rabs_le; lra.
  - intros k Hk. destruct k as [|[|[|k]]]; try lia; cbn [ea comp fst snd]; (split; [reflexivity|]); rewrite ?V1, ?V0, ?V2; apply Rabs_le; lra.
  - cbn [ea vals]. rewrite V0, V2. unfold len3R, dot3. replace (0 * 0 + 0 * 0 + 2 * 2) with (2 * 2) by ring. rewrite sqrt_square by lra.
    apply Rle_trans with (/ 1); [|lra]. apply Rinv_le_contravar; [lra|]. apply pow_R1_Rle; lra.
Qed.
