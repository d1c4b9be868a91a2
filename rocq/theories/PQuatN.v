(** Property C177: length, normalisation and inverse of double quaternions. *)
From Coq Require Import ZArith Reals Lra Psatz List.
From Flocq Require Import Core.Core IEEE754.BinarySingleNaN IEEE754.Binary IEEE754.Bits.
From Verif Require Import InstF LVector MVector LVector2 MQuaternion Spec Spec3 LSum PQuaternion PFloat LFloat PFloat2 LErr PCuller3 PQuatF.
Import ListNotations.
Local Open Scope R_scope.
Local Existing Instance F64Scalar.
Local Notation bp := (bpow radix2).
Local Notation mul := (b64_mult mode_NE).
Local Notation add := (b64_plus mode_NE).
Local Notation sub := (b64_minus mode_NE).

(** Finite and at most 2^500. *)
Definition wide (x : f64) : Prop := fin x /\ Rabs (val x) <= 2 ^ 500.

(** ** The sum of squares is that of Vector< 4 > *)
Lemma zero_plus (t : f64) : fin t -> Bsign 53 1024 t = false -> add f64_zero t = t.
Proof. unfold fin. destruct t as [s|s|s p H|s m e H]; cbn; intros F Sg; try discriminate F; subst; reflexivity. Qed.
Lemma square_sign (x : f64) : fin (mul x x) -> Bsign 53 1024 (mul x x) = false.
Proof.
  unfold fin, b64_mult. intros H.
  match type of H with context [Bmult _ _ ?p ?q ?n _ _ _] => pose proof (Bmult_correct 53 1024 p q n mode_NE x x) as C end. cbv zeta in C.
  destruct (Rlt_bool _ _).
  - destruct C as (_ & C2 & C3). rewrite C3; [apply xorb_nilpotent|]. revert H. match goal with |- is_finite _ _ ?t = true -> _ => destruct t end; cbn; congruence.
  - exfalso. apply (f_equal (is_finite_FF)) in C. rewrite is_finite_B2FF, H in C. discriminate C.
Qed.
Definition comp (q : dquat) (i : nat) : f64 := let '(x, y, z, w) := q in nth i [x; y; z; w] f64_zero.
Definition sq64 (q : dquat) : f64 := let '(x, y, z, w) := q in add (add (add (mul x x) (mul y y)) (mul z z)) (mul w w).
Lemma q_squared_abs_64 q : q_squared_abs (arr q) = Ok (sq64 q).
Proof. destruct q as [[[x y] z] w]. reflexivity. Qed.
Lemma sq64_sum q : fin (mul (comp q 0) (comp q 0)) -> sq64 q = ssum 4 (fun i => smul (comp q i) (comp q i)).
Proof.
  destruct q as [[[x y] z] w]. cbn [comp nth sq64 ssum sadd smul szero F64Scalar]. intros F. rewrite (zero_plus (mul x x) F (square_sign x F)). reflexivity.
Qed.
Lemma arr_rep q : repV 4 (arr q) (comp q).
Proof. destruct q as [[[x y] z] w]. split; [reflexivity|]. intros i Hi. destruct i as [|[|[|[|i]]]]; try reflexivity. lia. Qed.
Lemma qabs_len q : qabsR (qv q) = lenR 4 (fun i => val (comp q i)).
Proof. destruct q as [[[x y] z] w]. unfold qabsR, lenR, dotR. f_equal. cbn [qv qdotR rsum comp nth]. ring. Qed.
Lemma wide_comp q : qeach wide q -> forall i, (i < 4)%nat -> fin (comp q i) /\ Rabs (val (comp q i)) <= bp 500.
Proof.
  destruct q as [[[x y] z] w]. intros (A & B & C & D) i Hi. rewrite <- E500. destruct i as [|[|[|[|i]]]]; try assumption. lia.
Qed.
Lemma wide_square q : qeach wide q -> fin (mul (comp q 0) (comp q 0)).
Proof. intros H. destruct (wide_comp q H 0%nat ltac:(lia)) as (F & B). apply (okf_mult 500 500 1000 _ _ (conj F B) (conj F B) eq_refl). lia. Qed.

Section Q.
Context (cfg : Cfg).
(** abs() and normalize() are length() and normalize() of Vector< 4 >, except
    that normalize() returns the reciprocal of the length. *)
Lemma q_abs_vec q : qeach wide q -> q_abs (arr q) = vec_length 4 (arr q).
Proof.
  intros H. unfold q_abs, vec_length. rewrite q_squared_abs_64, (vec_squared_length_spec 4 (arr q) (comp q) (arr_rep q)). cbn [bind].
  rewrite (sq64_sum q (wide_square q H)). reflexivity.
Qed.
Lemma q_mul_assign_vec4 q a : exists p, q_mul_assign_s (arr q) a = Ok (arr p) /\ vec_mul_assign_s 4 (arr q) a = Ok (arr p) /\ forall i, (i < 4)%nat -> comp p i = mul (comp q i) a.
Proof.
  destruct q as [[[x y] z] w]. exists (mul x a, mul y a, mul z a, mul w a). split; [reflexivity|]. split; [reflexivity|].
  intros i Hi. destruct i as [|[|[|[|i]]]]; try reflexivity. lia.
Qed.
End Q.
Local Notation rnd := (round radix2 (FLT_exp (-1074) 53) (Znearest (fun x => negb (Z.even x)))).

(** Every component within a factor 1 +- k of the exact one, up to underflow. *)
Definition qrel (q : dquat) (r : Quat) (k : R) : Prop :=
  let '(x, y, z, w) := q in let '(x', y', z', w') := r in
  let ok (c : f64) (c' : R) := Rabs (val c - c') <= k * Rabs c' + / 2 ^ 1075 in ok x x' /\ ok y y' /\ ok z z' /\ ok w w'.

Lemma recip_F (r : f64) : fin r -> bp (-1000) <= val r -> val r <= bp 1021 ->
  fin (b64_div mode_NE f64_one r) /\ exists d, Rabs d <= uro /\ val (b64_div mode_NE f64_one r) = / val r * (1 + d).
Proof.
  intros F Lo Hi. pose proof (bpow_gt_0 radix2 (-1000)) as B0. assert (RP : 0 < val r) by lra.
  assert (I1 : Rabs (val f64_one / val r) <= bp 1000).
  { rewrite val_one. unfold Rdiv. rewrite Rmult_1_l, Rabs_pos_eq by (apply Rlt_le, Rinv_0_lt_compat; exact RP).
    change 1000%Z with (Z.opp (-1000)). rewrite bpow_opp. apply Rinv_le; [apply bpow_gt_0|exact Lo]. }
  assert (I2 : bp (-1022) <= Rabs (val f64_one / val r)).
  { rewrite val_one. unfold Rdiv. rewrite Rmult_1_l, Rabs_pos_eq by (apply Rlt_le, Rinv_0_lt_compat; exact RP).
    apply Rle_trans with (bp (Z.opp 1021)); [apply bpow_le; lia|]. rewrite bpow_opp. apply Rinv_le; [exact RP|exact Hi]. }
  destruct (div_fin f64_one r ltac:(reflexivity) ltac:(lra)) as (Fd & Ed). { eapply Rle_lt_trans; [apply (rnd_le _ 1000 ltac:(lia) I1)|]. apply bpow_lt. lia. }
  split; [exact Fd|]. destruct (rnd_rel _ I2) as (d & Hd & E). exists d. split; [exact Hd|]. rewrite Ed, E, val_one. unfold Rdiv. ring.
Qed.
(** (1 + d) / (1 + t) is 1 up to e + f. *)
Lemma quot_near d t e f : Rabs d <= e -> Rabs t <= f -> 0 <= e <= / 1000000 -> 0 <= f <= / 1000000 -> Rabs ((1 + d) / (1 + t) - 1) <= (e + f) * (1 + 2 * f).
Proof.
  intros Hd Ht He Hf. assert (T : - f <= t <= f) by (revert Ht; unfold Rabs; destruct (Rcase_abs t); lra).
  replace ((1 + d) / (1 + t) - 1) with ((d - t) * / (1 + t)) by (field; lra). rewrite Rabs_mult.
  apply Rmult_le_compat; try apply Rabs_pos.
  - unfold Rminus. eapply Rle_trans; [apply Rabs_triang|]. rewrite Rabs_Ropp. lra.
  - rewrite Rabs_pos_eq by (apply Rlt_le, Rinv_0_lt_compat; lra). apply (Rmult_le_reg_r (1 + t)); [lra|]. rewrite Rinv_l by lra. nra.
Qed.

(** C177. *)
Theorem C177_normalize :
  forall (cfg : Cfg) (q : dquat), qeach wide q -> / 2 ^ 450 <= qabsR (qv q) ->
  exists l r n, q_abs (arr q) = Ok l /\ q_normalize (arr q) = Ok (r, arr n) /\ q_get_normalized (arr q) = Ok (arr n) /\
  (* the length *)
  fin l /\ Rabs (val l - qabsR (qv q)) <= 5 / 2 ^ 52 * qabsR (qv q) /\
  (* the number returned by normalize() is the reciprocal of the length *)
  fin r /\ Rabs (val r - / qabsR (qv q)) <= 6 / 2 ^ 52 * / qabsR (qv q) /\
  (* the normalised quaternion *)
  qeach fin n /\ qrel n (qscaleR (/ qabsR (qv q)) (qv q)) (7 / 2 ^ 52) /\
  Rabs (qabsR (qv n) - 1) <= 8 / 2 ^ 52.
Proof.
  intros cfg q Hq HL. rewrite qabs_len in HL. pose proof (wide_comp q Hq) as WC.
  assert (WC' : forall i, (i < 4)%nat -> fin (comp q i) /\ Rabs (val (comp q i)) <= 2 ^ 500) by (intros i Hi; rewrite E500; apply WC; exact Hi).
  destruct (C116_normalize_error cfg 4 (arr q) (comp q) (arr_rep q) ltac:(lia) WC' HL) as (l & v' & c & EN & EL & Hc & HC & HU).
  destruct (C116_length_error cfg 4 (arr q) (comp q) (arr_rep q) ltac:(lia) WC' HL) as (l' & EL' & Fl & Hl). rewrite EL in EL'. injection EL' as <-.
  rewrite E450 in HL. pose proof (L_high 4 (comp q) WC ltac:(lia) HL) as LH. pose proof (L_pos 4 (comp q) HL) as LP.
  destruct (len_rel 4 (comp q) WC ltac:(lia) HL) as (l2 & t & E2 & _ & Ht & Et).
  assert (l2 = l). { unfold vec_length in EL. rewrite (vec_squared_length_spec 4 (arr q) (comp q) (arr_rep q)) in EL. cbn [bind] in EL. rewrite E2 in EL. injection EL as ->. reflexivity. } subst l2.
  rewrite <- qabs_len in *. set (L := qabsR (qv q)) in *. pose proof uro_val as UV. replace (INR 4) with 4 in * by (cbn; lra).
  assert (TS : - / 1000 <= t <= / 1000). { assert (Rabs t <= / 1000) by (rewrite UV in Ht; lra). revert H. unfold Rabs. destruct (Rcase_abs t); lra. }
  assert (RL : bp (-1000) <= val l).
  { rewrite Et. apply Rle_trans with (bp (-450) * / 2); [change (/ 2) with (bp (-1)); rewrite <- bpow_plus; apply bpow_le; lia|].
    apply Rmult_le_compat; [apply bpow_ge_0|lra|exact HL|lra]. }
  assert (RH : val l <= bp 1021).
  { apply Rle_trans with (bp 510 * bp 1); [|rewrite <- bpow_plus; apply bpow_le; lia].
    rewrite Et. apply Rmult_le_compat; [lra|lra|exact LH|change (bp 1) with 2; lra]. }
  destruct (recip_F l Fl RL RH) as (Fr & d & Hd & Er). set (r := b64_div mode_NE f64_one l) in *.
  pose proof (bpow_gt_0 radix2 (-1000)) as B0.
  destruct (q_mul_assign_vec4 cfg q r) as (n & M1 & M2 & CN).
  assert (NE : q_normalize (arr q) = Ok (r, arr n) /\ v' = arr n).
  { unfold q_normalize. rewrite (q_abs_vec q Hq), EL. unfold vec_normalize in EN. rewrite EL in EN. cbn [bind seqb szero sone sdiv F64Scalar] in *.
    rewrite (Beqb_pos l Fl ltac:(lra)) in *. cbn [bind] in *. fold r. fold r in EN. rewrite M1. rewrite M2 in EN. cbn [bind] in *. split; [reflexivity|]. injection EN as ->. reflexivity. }
  destruct NE as (NE & ->).
  exists l, r, n. split; [rewrite (q_abs_vec q Hq); exact EL|]. split; [exact NE|]. split; [unfold q_get_normalized; rewrite NE; reflexivity|].
  split; [exact Fl|]. split; [replace (5 / 2 ^ 52) with ((4 + 1) / 2 ^ 52) by lra; exact Hl|]. split; [exact Fr|]. split.
  - rewrite Er, Et. replace (/ (L * (1 + t)) * (1 + d) - / L) with (((1 + d) / (1 + t) - 1) * / L) by (field; lra).
    rewrite Rabs_mult, (Rabs_pos_eq (/ L)) by (apply Rlt_le, Rinv_0_lt_compat; exact LP). apply Rmult_le_compat_r; [apply Rlt_le, Rinv_0_lt_compat; exact LP|].
    eapply Rle_trans; [apply (quot_near d t uro (10 * uro) Hd); rewrite ?UV; rewrite ?UV in Ht; lra|]. rewrite UV. lra.
  - assert (CC : forall i, (i < 4)%nat -> c i = comp n i).
    { intros i Hi. destruct Hc as (_ & Hc). destruct (arr_rep n) as (_ & Hn). specialize (Hc i Hi). rewrite (Hn i Hi) in Hc. injection Hc as ->. reflexivity. }
    assert (LN : lenR 4 (fun i => val (c i)) = qabsR (qv n)) by (rewrite qabs_len; apply lenR_ext; intros i Hi; rewrite (CC i Hi); reflexivity).
    rewrite LN in HU. split; [|split].
    + destruct n as [[[nx ny] nz] nw]. repeat split; [destruct (HC 0%nat ltac:(lia)) as (F & _); rewrite CC in F by lia|destruct (HC 1%nat ltac:(lia)) as (F & _); rewrite CC in F by lia|destruct (HC 2%nat ltac:(lia)) as (F & _); rewrite CC in F by lia|destruct (HC 3%nat ltac:(lia)) as (F & _); rewrite CC in F by lia]; exact F.
    + assert (G : forall i, (i < 4)%nat -> Rabs (val (comp n i) - / L * val (comp q i)) <= 7 / 2 ^ 52 * Rabs (/ L * val (comp q i)) + / 2 ^ 1075).
      { intros i Hi. destruct (HC i Hi) as (_ & G). rewrite (CC i Hi) in G. replace (/ L * val (comp q i)) with (val (comp q i) / L) by (unfold Rdiv; ring).
        eapply Rle_trans; [exact G|]. apply Rplus_le_compat_r. apply Rmult_le_compat_r; [apply Rabs_pos|lra]. }
      destruct n as [[[nx ny] nz] nw], q as [[[qx qy] qz] qw]. repeat split; [exact (G 0%nat ltac:(lia))|exact (G 1%nat ltac:(lia))|exact (G 2%nat ltac:(lia))|exact (G 3%nat ltac:(lia))].
    + eapply Rle_trans; [exact HU|]. lra.
Qed.
Print Assumptions C177_normalize.

Theorem C177_inverse :
  forall (q : dquat), qeach wide q -> / 2 ^ 450 <= qabsR (qv q) ->
  exists n, q_inverse (arr q) = Ok (arr n) /\ qeach fin n /\
  qrel n (qscaleR (/ qdotR (qv q) (qv q)) (qconjR (qv q))) (6 / 2 ^ 52).
Proof.
  intros q Hq HL. rewrite qabs_len in HL. pose proof (wide_comp q Hq) as WC. rewrite E450 in HL.
  pose proof (L_high 4 (comp q) WC ltac:(lia) HL) as LH. pose proof (L_pos 4 (comp q) HL) as LP. pose proof (LL_low 4 (comp q) HL) as LW.
  destruct (sum_rel 4 (comp q) WC ltac:(lia) HL) as (x & Hx & Ex & Fs). rewrite <- (sq64_sum q (wide_square q Hq)) in Ex, Fs.
  pose proof uro_val as UV. pose proof (bp170 4) as B170. replace (INR 4) with 4 in * by (cbn; lra).
  assert (CL : forall i, (i < 4)%nat -> Rabs (val (comp q i)) <= qabsR (qv q)).
  { intros i Hi. pose proof (comp_le (qv q)) as C. destruct q as [[[qx qy] qz] qw]. cbn [qv] in C. destruct C as (C0 & C1 & C2 & C3). destruct i as [|[|[|[|i]]]]; try assumption. lia. }
  rewrite <- qabs_len in *. set (L := qabsR (qv q)) in *.
  pose proof uro_pos as U0. assert (XS : Rabs x <= 9 * uro) by lra.
  assert (XT : - / 1000 <= x <= / 1000). { assert (Rabs x <= / 1000) by (rewrite UV in XS; lra). revert H. unfold Rabs. destruct (Rcase_abs x); lra. }
  assert (LL2 : L * L <= bp 1020) by (change 1020%Z with (510 + 510)%Z; rewrite bpow_plus; apply Rmult_le_compat; lra).
  pose proof (bpow_gt_0 radix2 (-900)) as B9.
  assert (SL : bp (-1000) <= val (sq64 q)).
  { rewrite Ex. apply Rle_trans with (bp (-900) * / 2); [change (/ 2) with (bp (-1)); rewrite <- bpow_plus; apply bpow_le; lia|].
    apply Rmult_le_compat; [lra|lra|exact LW|lra]. }
  assert (SH : val (sq64 q) <= bp 1021).
  { rewrite Ex. change 1021%Z with (1020 + 1)%Z. rewrite bpow_plus. apply Rmult_le_compat; [lra|lra|exact LL2|change (bp 1) with 2; lra]. }
  destruct (recip_F (sq64 q) Fs SL SH) as (Fr & d & Hd & Er). set (r := b64_div mode_NE f64_one (sq64 q)) in *.
  assert (QN : Rabs ((1 + d) / (1 + x) - 1) <= 101 / 10 * uro).
  { eapply Rle_trans; [apply (quot_near d x uro (9 * uro) Hd XS); rewrite ?UV; lra|]. rewrite UV. lra. }
  set (k := (1 + d) / (1 + x)) in *.
  assert (EK : val r = / (L * L) * k) by (rewrite Er, Ex; unfold k; field; lra).
  assert (KB : - (101 / 10 * uro) <= k - 1 <= 101 / 10 * uro) by (revert QN; unfold Rabs; destruct (Rcase_abs (k - 1)); lra).
  assert (UB : 0 < uro <= / 1000000) by (rewrite UV; lra).
  assert (G : forall (y : f64), fin y -> Rabs (val y) <= L -> fin (mul y r) /\
     Rabs (val (mul y r) - / (L * L) * val y) <= 6 / 2 ^ 52 * Rabs (/ (L * L) * val y) + / 2 ^ 1075).
  { intros y Fy By. set (z := / (L * L) * val y).
    assert (PZ : val y * val r = z * k) by (rewrite EK; unfold z; ring).
    assert (ZB : Rabs z <= bp 451).
    { unfold z. rewrite Rabs_mult, (Rabs_pos_eq (/ (L * L))) by (apply Rlt_le, Rinv_0_lt_compat; apply Rmult_lt_0_compat; lra).
      apply Rle_trans with (/ (L * L) * L); [apply Rmult_le_compat_l; [apply Rlt_le, Rinv_0_lt_compat; apply Rmult_lt_0_compat; lra|exact By]|].
      replace (/ (L * L) * L) with (/ L) by (field; lra). apply Rle_trans with (bp (Z.opp (-450))); [|apply bpow_le; lia]. rewrite bpow_opp. apply Rinv_le; [apply bpow_gt_0|exact HL]. }
    assert (PB : Rabs (val y * val r) <= bp 452).
    { rewrite PZ, Rabs_mult. change 452%Z with (451 + 1)%Z. rewrite bpow_plus. apply Rmult_le_compat; try apply Rabs_pos; [exact ZB|].
      rewrite Rabs_pos_eq by lra. change (bp 1) with 2. lra. }
    destruct (mult_fin y r Fy Fr) as (F & E). { eapply Rle_lt_trans; [apply (rnd_le _ 452 ltac:(lia) PB)|]. apply bpow_lt. lia. }
    split; [exact F|]. rewrite E. destruct (mult_error (val y) (val r)) as (d2 & e & Hd2 & He & ->). rewrite PZ.
    replace (z * k * (1 + d2) + e - z) with (z * ((k - 1) + (d2 + (k - 1) * d2)) + e) by ring.
    eapply Rle_trans; [apply Rabs_triang|]. apply Rplus_le_compat; [|exact He]. rewrite Rabs_mult, Rmult_comm. apply Rmult_le_compat_r; [apply Rabs_pos|].
    assert (D1 : Rabs ((k - 1) * d2) <= / 10 * uro).
    { rewrite Rabs_mult. apply Rmult_le_compat; try apply Rabs_pos; [|exact Hd2]. eapply Rle_trans; [exact QN|lra]. }
    eapply Rle_trans; [apply Rabs_triang|]. eapply Rle_trans; [apply Rplus_le_compat; [exact QN|apply Rabs_triang]|]. rewrite UV in *. lra. }
  assert (DL : qdotR (qv q) (qv q) = L * L) by (unfold L; rewrite qabs_sq; reflexivity). rewrite DL.
  assert (O : forall (y : f64), fin y -> Rabs (val y) <= L -> fin (b64_opp y) /\ Rabs (val (b64_opp y)) <= L /\ val (b64_opp y) = - val y).
  { intros y Fy By. assert (V : val (b64_opp y) = - val y) by (unfold val, b64_opp; apply B2R_Bopp). split; [unfold fin, b64_opp; rewrite is_finite_Bopp; exact Fy|]. split; [rewrite V, Rabs_Ropp; exact By|exact V]. }
  assert (C : forall i, (i < 4)%nat -> fin (comp q i) /\ Rabs (val (comp q i)) <= L) by (intros i Hi; split; [apply WC; exact Hi|apply CL; exact Hi]).
  assert (RUN : q_inverse (arr q) = Ok (arr (mul (b64_opp (comp q 0)) r, mul (b64_opp (comp q 1)) r, mul (b64_opp (comp q 2)) r, mul (comp q 3) r))).
  { unfold q_inverse. unfold r. clearbody r. rewrite q_squared_abs_64. destruct q as [[[qx qy] qz] qw]. reflexivity. }
  eexists. split; [exact RUN|].
  destruct (C 0%nat ltac:(lia)) as (F0 & B0). destruct (O _ F0 B0) as (F0' & B0' & V0). destruct (G _ F0' B0') as (Q0 & R0).
  destruct (C 1%nat ltac:(lia)) as (F1 & B1). destruct (O _ F1 B1) as (F1' & B1' & V1). destruct (G _ F1' B1') as (Q1 & R1).
  destruct (C 2%nat ltac:(lia)) as (F2 & B2). destruct (O _ F2 B2) as (F2' & B2' & V2). destruct (G _ F2' B2') as (Q2 & R2).
  destruct (C 3%nat ltac:(lia)) as (F3 & B3). destruct (G _ F3 B3) as (Q3 & R3).
  rewrite V0 in R0. rewrite V1 in R1. rewrite V2 in R2.
  split; [repeat split; assumption|]. destruct q as [[[qx qy] qz] qw]. repeat split; assumption.
Qed.
Print Assumptions C177_inverse.

(** The quaternion times its inverse is the identity up to 88 / 2^52. *)
Lemma qrel_near n r k : 0 <= k -> qrel n r k -> qnear n r (k * qabsR r + / 2 ^ 1075).
Proof.
  intros Hk H. pose proof (comp_le r) as C. destruct n as [[[nx ny] nz] nw], r as [[[rx ry] rz] rw]. destruct C as (C0 & C1 & C2 & C3), H as (H0 & H1 & H2 & H3).
  repeat split; (eapply Rle_trans; [eassumption|]; apply Rplus_le_compat_r, Rmult_le_compat_l; assumption).
Qed.
Lemma qabs_scale k p : 0 <= k -> qabsR (qscaleR k p) = k * qabsR p.
Proof.
  intros H. unfold qabsR. replace (qdotR (qscaleR k p) (qscaleR k p)) with (k * k * qdotR p p) by (destruct p as [[[x y] z] w]; cbn; ring).
  rewrite sqrt_mult_alt by nra. rewrite sqrt_square by exact H. reflexivity.
Qed.
Lemma qabs_conj p : qabsR (qconjR p) = qabsR p.
Proof. unfold qabsR. f_equal. destruct p as [[[x y] z] w]. cbn. ring. Qed.
Lemma qmul_sub p a b : qsubR (qmulR p a) (qmulR p b) = qmulR p (qsubR a b).
Proof. destruct p as [[[px py] pz] pw], a as [[[ax ay] az] aw], b as [[[bx b_y] bz] bw]. cbn. repeat apply pair_eq; ring. Qed.
Lemma qabs_sub3 a b c : qabsR (qsubR a c) <= qabsR (qsubR a b) + qabsR (qsubR b c).
Proof.
  pose proof (qabs_diff (qsubR a c) (qsubR b c)) as D. replace (qsubR (qsubR a c) (qsubR b c)) with (qsubR a b) in D.
  - revert D. unfold Rabs. destruct (Rcase_abs _); lra.
  - destruct a as [[[ax ay] az] aw], b as [[[bx b_y] bz] bw], c as [[[cx cy] cz] cw]. cbn. repeat apply pair_eq; ring.
Qed.
Theorem C177_inverse_product :
  forall (q : dquat), qeach fin q -> / 2 ^ 300 <= qabsR (qv q) <= 2 ^ 300 ->
  exists n p, q_inverse (arr q) = Ok (arr n) /\ q_mul (arr q) (arr n) = Ok (arr p) /\ qeach fin p /\
  qabsR (qsubR (qv p) (0, 0, 0, 1)) <= 88 / 2 ^ 52.
Proof.
  intros q Fq (Lo & Hi).
  assert (P300 : bp 300 = 2 ^ 300) by exact (bpow_pow 300).
  assert (M300 : bp (-300) = / 2 ^ 300) by (change (-300)%Z with (Z.opp 300); rewrite bpow_opp, P300; reflexivity).
  rewrite <- M300 in Lo. rewrite <- P300 in Hi. pose proof (bpow_gt_0 radix2 (-300)) as B300.
  assert (Oq : qeach (okf 300) q) by (apply qeach_okf; [exact Fq|exact Hi]).
  assert (Wq : qeach wide q).
  { destruct q as [[[qx qy] qz] qw]. destruct Oq as ((? & A) & (? & B) & (? & C) & (? & D)).
    assert (P : bp 300 <= 2 ^ 500) by (rewrite E500; apply bpow_le; lia). repeat split; try assumption; lra. }
  destruct (C177_inverse q Wq) as (n & EN & Fn & RN). { rewrite E450. apply Rle_trans with (bp (-300)); [apply bpow_le; lia|exact Lo]. }
  set (L := qabsR (qv q)) in *. assert (LP : 0 < L) by lra.
  assert (DL : qdotR (qv q) (qv q) = L * L) by (unfold L; rewrite qabs_sq; reflexivity). rewrite DL in RN.
  set (t := qscaleR (/ (L * L)) (qconjR (qv q))) in *.
  assert (AT : qabsR t = / L). { unfold t. rewrite qabs_scale by (apply Rlt_le, Rinv_0_lt_compat, Rmult_lt_0_compat; lra). rewrite qabs_conj. fold L. field. lra. }
  assert (IL : bp (-300) <= / L <= bp 300).
  { split; [change (-300)%Z with (Z.opp 300); rewrite bpow_opp; apply Rinv_le; assumption|]. change 300%Z with (Z.opp (-300)). rewrite bpow_opp. apply Rinv_le; [exact B300|exact Lo]. }
  assert (ET : / 2 ^ 1075 <= / 2 ^ 60 * / L).
  { apply Rle_trans with (bp (-60) * bp (-300)); [|replace (bp (-60)) with (/ 2 ^ 60) by (cbn; lra); apply Rmult_le_compat_l; [lra|apply IL]].
    apply Rle_trans with (bp (-1075)); [right; change (-1075)%Z with (Z.opp 1075); rewrite bpow_opp, bpow_pow; reflexivity|]. rewrite <- bpow_plus. apply bpow_le. lia. }
  pose proof (qrel_near n t (6 / 2 ^ 52) ltac:(lra) RN) as NN. rewrite AT in NN.
  assert (E0 : 0 < / 2 ^ 1075) by (apply Rinv_0_lt_compat, pow_lt; lra). assert (L0 : 0 < / L) by (apply Rinv_0_lt_compat; exact LP).
  assert (NA : qabsR (qsubR (qv n) t) <= 2 * (6 / 2 ^ 52 * / L + / 2 ^ 1075)) by (apply near_abs; [lra|exact NN]).
  assert (NL : qabsR (qsubR (qv n) t) <= 13 / 2 ^ 52 * / L) by lra.
  assert (AN : Rabs (qabsR (qv n) - / L) <= 13 / 2 ^ 52 * / L) by (rewrite <- AT at 1; eapply Rle_trans; [apply qabs_diff|exact NL]).
  assert (AN' : (1 - 13 / 2 ^ 52) * / L <= qabsR (qv n) <= (1 + 13 / 2 ^ 52) * / L) by (revert AN; unfold Rabs; destruct (Rcase_abs _); lra).
  assert (LI : L * / L = 1) by (field; lra).
  assert (LN : 1 - 13 / 2 ^ 52 <= L * qabsR (qv n) <= 1 + 13 / 2 ^ 52).
  { split; [apply Rle_trans with (L * ((1 - 13 / 2 ^ 52) * / L)); [right; field; lra|apply Rmult_le_compat_l; lra]|apply Rle_trans with (L * ((1 + 13 / 2 ^ 52) * / L)); [apply Rmult_le_compat_l; lra|right; field; lra]]. }
  assert (On : qeach (okf 301) n) by (apply qeach_okf; [exact Fn|]; change 301%Z with (300 + 1)%Z; rewrite bpow_plus; change (bp 1) with 2; lra).
  assert (Oq' : qeach (okf 301) q) by (apply qeach_okf; [exact Fq|]; apply Rle_trans with (1 := Hi); apply bpow_le; lia).
  pose proof (qmul_norm_err q n 301 ltac:(lia) Oq' On) as ME. fold L in ME.
  assert (B9 : bp (-900) <= L * qabsR (qv n)) by (apply Rle_trans with (bp (-1)); [apply bpow_le; lia|change (bp (-1)) with (/ 2); lra]). specialize (ME B9).
  exists n, (qmul64 q n). split; [exact EN|]. split; [apply q_mul_64|]. split.
  - destruct (qmul_err q n 301 ltac:(lia) Oq' On) as (O & _). destruct (qmul64 q n) as [[[? ?] ?] ?]. destruct O as (A & B & C & D). repeat split; [apply A|apply B|apply C|apply D].
  - assert (ID : qmulR (qv q) t = (0, 0, 0, 1)).
    { unfold t. rewrite <- DL. assert (QD : qdotR (qv q) (qv q) <> 0) by (rewrite DL; apply Rgt_not_eq, Rmult_lt_0_compat; lra). clear - QD.
      destruct (qv q) as [[[x y] z] w]. cbn in QD |- *. repeat apply pair_eq; field; exact QD. }
    rewrite <- ID. eapply Rle_trans; [apply (qabs_sub3 _ (qmulR (qv q) (qv n)))|].
    rewrite qmul_sub, qabs_mul. fold L. pose proof uro_val as UV. rewrite UV in ME.
    assert (L * qabsR (qsubR (qv n) t) <= 13 / 2 ^ 52). { apply Rle_trans with (L * (13 / 2 ^ 52 * / L)); [apply Rmult_le_compat_l; lra|right; field; lra]. }
    lra.
Qed.
Print Assumptions C177_inverse_product.

(** ** The hypotheses can be met *)
Lemma wide_half : wide f64_half.
Proof. split; [reflexivity|]. rewrite val_half, Rabs_pos_eq by lra. assert (1 <= 2 ^ 500) by (apply pow_R1_Rle; lra). lra. Qed.
Example C177_hypotheses_met : qeach wide q_halves /\ / 2 ^ 450 <= qabsR (qv q_halves) /\ qeach fin q_halves /\ / 2 ^ 300 <= qabsR (qv q_halves) <= 2 ^ 300.
Proof.
  rewrite halves_unit. assert (A : 1 <= 2 ^ 450) by (apply pow_R1_Rle; lra). assert (B : 1 <= 2 ^ 300) by (apply pow_R1_Rle; lra).
  split; [repeat split; apply wide_half|]. split; [rewrite <- Rinv_1; apply Rinv_le_contravar; lra|]. split; [exact halves_fin|].
  split; [rewrite <- Rinv_1; apply Rinv_le_contravar; lra|exact B].
Qed.
