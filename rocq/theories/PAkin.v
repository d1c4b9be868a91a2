(** Property C163: is_akin() of quaternions of doubles goes through float. *)
From Coq Require Import ZArith Reals Lra Psatz Bool List.
From Flocq Require Import Core.Core IEEE754.BinarySingleNaN IEEE754.Binary IEEE754.Bits.
From Verif Require Import InstF InstF32 LF64 LVector MQuaternion MFloat MDouble PFloat LFloat PFloat2 LErr Spec10 LExt.
From Verif Require PF32 LF32 PF32b Spec10f LExt32 LF32d LExprF PFilter PCullF PDouble PFloat4.
Import ListNotations.
Local Open Scope R_scope.
Local Notation bp := (bpow radix2).
Local Notation rnd := (round radix2 (FLT_exp (-1074) 53) (Znearest (fun x => negb (Z.even x)))).

(** What float makes of a double difference, as a double. *)
Definition narrowed (d : f64) : f64 := f64_of_f32 (b32_abs (f32_of_f64 d)).
Lemma narrowed_inf s : narrowed (B754_infinity 53 1024 s) = B754_infinity 53 1024 false.
Proof. reflexivity. Qed.
Lemma apart_inf (delta : f64) : fin delta -> Bltb delta (B754_infinity 53 1024 false) = true.
Proof. intros F. destruct delta as [s|s|s p0 H0|s m e H0]; try discriminate F; try reflexivity; destruct s; reflexivity. Qed.
Lemma narrowed_fin (d : f64) : fin d -> narrowed d = B754_infinity 53 1024 false /\ bp 127 < Rabs (val d) \/
  fin (narrowed d) /\ Rabs (val (narrowed d) - Rabs (val d)) <= PF32.uro * Rabs (val d) + PF32.eta.
Proof.
  intros Fd. destruct (Rle_lt_dec (Rabs (val d)) (bp 127)) as [L|L].
  - right. destruct (PFilter.narrow_fin d 127 Fd L ltac:(lia)) as ((Fr & _) & E). unfold narrowed. set (r := f32_of_f64 d) in *.
    assert (Fa : PF32.fin (b32_abs r)) by (unfold PF32.fin, b32_abs; rewrite is_finite_Babs; exact Fr).
    destruct (LF32d.widen _ Fa) as (W1 & W2 & _). split; [exact W1|]. unfold val at 1. rewrite W2. unfold b32_abs. rewrite B2R_Babs.
    change (B2R 24 128 r) with (PF32.val r). eapply Rle_trans; [apply Rabs_triang_inv2|]. exact E.
  - destruct (LF32d.narrow d Fd) as (N1 & N2 & _). change (B2R 53 1024 d) with (val d) in N1. unfold LExt32.rnx in N1.
    destruct (Rlt_bool_spec (Rabs (round radix2 (FLT_exp (-149) 24) (Znearest (fun x => negb (Z.even x))) (val d))) (bp 128)) as [B|B].
    + right. unfold narrowed. set (r := f32_of_f64 d) in *. apply LExt32.value_number in N1 as (Fr & Er).
      assert (Fa : PF32.fin (b32_abs r)) by (unfold PF32.fin, b32_abs; rewrite is_finite_Babs; exact Fr).
      destruct (LF32d.widen _ Fa) as (W1 & W2 & _). split; [exact W1|]. unfold val at 1. rewrite W2. unfold b32_abs. rewrite B2R_Babs.
      change (B2R 24 128 r) with (PF32.val r). rewrite Er. eapply Rle_trans; [apply Rabs_triang_inv2|].
      destruct (PF32.mult_error (val d) 1) as (e & z & He & Hz & E). rewrite Rmult_1_r in E. rewrite E.
      replace (val d * (1 + e) + z - val d) with (e * val d + z) by ring. eapply Rle_trans; [apply Rabs_triang|]. rewrite Rabs_mult.
      apply Rplus_le_compat; [apply Rmult_le_compat_r; [apply Rabs_pos|exact He]|exact Hz].
    + left. split; [|exact L]. unfold narrowed. destruct (f32_of_f64 d); try discriminate N1. reflexivity.
Qed.
Lemma u32 : PF32.uro = / 16777216.
Proof. exact PF32b.uro_val. Qed.
(** One comparison. *)
Lemma apart_spec (a b delta : f64) : fin a -> fin b -> fin delta ->
  (qd_apart a b delta = false -> 0 <= val delta /\ Rabs (val a - val b) <= (1 + / 2 ^ 23) * val delta + / 2 ^ 149) /\
  (Rabs (val a - val b) <= (1 - / 2 ^ 23) * val delta - / 2 ^ 149 -> val delta <= 2 ^ 127 -> qd_apart a b delta = false).
Proof.
  intros Fa Fb Ft. unfold qd_apart. change (f64_of_f32 (b32_abs (f32_of_f64 (b64_minus mode_NE a b)))) with (narrowed (b64_minus mode_NE a b)).
  assert (E149 : / 2 ^ 149 = 2 * PF32.eta). { unfold PF32.eta. replace (2 ^ 150) with (2 * 2 ^ 149) by (cbn; ring). field. }
  assert (E23 : / 2 ^ 23 = 2 * PF32.uro) by (rewrite u32; cbn; lra). rewrite E149, E23. pose proof PF32.eta_pos as EP. pose proof u32 as U. pose proof uro_val as U6.
  assert (EO : val (b64_opp b) = - val b) by (unfold val, b64_opp; apply B2R_Bopp).
  destruct (PFloat.plus_error a (b64_opp b)) as (e & He & Ed). rewrite EO in Ed. change (val a + - val b) with (val a - val b) in Ed.
  pose proof (value_minus a b) as V. rewrite (value_fin a Fa), (value_fin b Fb) in V. cbn [negated nadd] in V. change (val a + - val b) with (val a - val b) in V.
  set (d := b64_minus mode_NE a b) in *. set (X := Rabs (val a - val b)). pose proof (Rabs_pos (val a - val b)) as X0. fold X in X0.
  assert (T127 : 2 ^ 127 = bp 127) by exact (eq_sym (PFloat.bpow_pow 127)).
  unfold rnx in V. destruct (Rlt_bool_spec (Rabs (rnd (val a - val b))) (bp 1024)) as [B|B].
  - apply value_number in V as (Fd & Vd).
    assert (DX : (1 - uro) * X <= Rabs (val d) <= (1 + uro) * X).
    { rewrite Vd, Ed, Rabs_mult. fold X. apply Rabs_le_inv in He. rewrite (Rabs_pos_eq (1 + e)) by (rewrite U6 in He; lra). split; nra. }
    destruct (narrowed_fin d Fd) as [(EI & L)|(Fn & En)].
    + rewrite EI, (apart_inf delta Ft). split; [discriminate|]. intros H H2. exfalso. rewrite T127 in H2. rewrite U in H. rewrite U6 in DX. lra.
    + rewrite (Bltb_fin_false delta _ Ft Fn). apply Rabs_le_inv in En. rewrite U in *. rewrite U6 in DX. split.
      * intros H. assert (0 <= val (narrowed d)).
        { unfold narrowed in *. set (r := f32_of_f64 d) in *. destruct (is_finite 24 128 (b32_abs r)) eqn:Fr.
          - destruct (LF32d.widen _ Fr) as (_ & W2 & _). unfold val. rewrite W2. unfold b32_abs. rewrite B2R_Babs. apply Rabs_pos.
          - exfalso. pose proof (PDouble.widen_shape (b32_abs r)) as W. destruct (b32_abs r); try discriminate Fr; [rewrite W in Fn; discriminate Fn|].
            unfold fin in Fn. destruct (f64_of_f32 _); try discriminate W; discriminate Fn. }
        split; [lra|]. lra.
      * intros H H2. lra.
  - assert (NF : exists s, d = B754_infinity 53 1024 s) by (destruct d; try discriminate V; eauto).
    destruct NF as (s & ->). rewrite narrowed_inf, (apart_inf delta Ft). split; [discriminate|]. intros H H2. exfalso.
    rewrite Ed, Rabs_mult in B. fold X in B. assert (1 + e <= 2) by (apply Rabs_le_inv in He; rewrite U6 in He; lra).
    assert (Rabs (1 + e) <= 2) by (apply Rabs_le_inv in He; rewrite U6 in He; apply Rabs_le; lra).
    assert (X * Rabs (1 + e) <= X * 2) by (apply Rmult_le_compat_l; assumption).
    assert (bp 127 * 4 <= bp 1024) by (change 4 with (bp 2); rewrite <- bpow_plus; apply bpow_le; lia).
    pose proof (bpow_gt_0 radix2 127). rewrite T127 in H2. rewrite U in H. lra.
Qed.

(** C163: with finite components is_akin() decides the comparison with delta up
    to a relative error of 2^-23 and an absolute error of 2^-149, as long as
    delta does not exceed 2^127. *)
Theorem C163_is_akin_partial :
  forall (p q : nat -> f64) (delta : f64),
  (forall k, (k < 4)%nat -> fin (p k) /\ fin (q k)) -> fin delta ->
  exists b, qd_is_akin [p 0%nat; p 1%nat; p 2%nat; p 3%nat] [q 0%nat; q 1%nat; q 2%nat; q 3%nat] delta = Ok b /\
  (b = true -> forall k, (k < 4)%nat -> Rabs (val (p k) - val (q k)) <= (1 + / 2 ^ 23) * val delta + / 2 ^ 149) /\
  ((forall k, (k < 4)%nat -> Rabs (val (p k) - val (q k)) <= (1 - / 2 ^ 23) * val delta - / 2 ^ 149) -> val delta <= 2 ^ 127 -> b = true).
Proof.
  intros p q delta HF Ft. unfold qd_is_akin, q4. cbn [rd nth_error bind]. eexists. split; [reflexivity|].
  pose proof (fun k (Hk : (k < 4)%nat) => apart_spec (p k) (q k) delta (proj1 (HF k Hk)) (proj2 (HF k Hk)) Ft) as K.
  rewrite negb_true_iff, !orb_false_iff. split.
  - intros (((A3 & A0) & A1) & A2) k Hk. destruct (K k Hk) as (K1 & _).
    destruct k as [|[|[|[|k]]]]; try lia; apply K1; assumption.
  - intros H H2. assert (G : forall k, (k < 4)%nat -> qd_apart (p k) (q k) delta = false) by (intros k Hk; apply (proj2 (K k Hk)); [apply H; exact Hk|exact H2]). repeat split; apply G; lia.
Qed.
Print Assumptions C163_is_akin_partial.

(** C163 is false as stated: different quaternions are akin with delta = 0,
    components that differ by more than delta are accepted, components that
    differ by less than delta are rejected (by rounding or by overflow), and a
    quaternion of NaNs is akin to every quaternion. *)
Definition okb (r : res bool) : option bool := match r with Ok b => Some b | _ => None end.
Theorem C163_is_akin_refuted :
  (let e := b64_of_bits 0x3370000000000000 in
   0 < val e /\ okb (qd_is_akin [e; e; e; e] [f64_zero; f64_zero; f64_zero; f64_zero] f64_zero) = Some true) /\
  (let c := b64_of_bits 0x3FF0000001000000 in
   1 < val c /\ okb (qd_is_akin [c; c; c; c] [f64_zero; f64_zero; f64_zero; f64_zero] f64_one) = Some true) /\
  (let c := b64_of_bits 0x3FF0000018000000 in let t := b64_of_bits 0x3FF0000019000000 in
   val c < val t /\ okb (qd_is_akin [c; c; c; c] [f64_zero; f64_zero; f64_zero; f64_zero] t) = Some false) /\
  (let c := b64_of_bits 0x4C70000000000000 in let t := b64_of_bits 0x4D70000000000000 in
   fin t /\ val c < val t /\ okb (qd_is_akin [c; c; c; c] [f64_zero; f64_zero; f64_zero; f64_zero] t) = Some false) /\
  (forall x y z w : f64, okb (qd_is_akin [f64_nan; f64_nan; f64_nan; f64_nan] [x; y; z; w] f64_eps) = Some true).
Proof.
  split; [|split; [|split; [|split]]]; cbv zeta.
  - split; [|vm_compute; reflexivity]. replace 0 with (val f64_zero) by reflexivity. apply Bltb_fin; vm_compute; reflexivity.
  - split; [|vm_compute; reflexivity]. rewrite <- val_one. apply Bltb_fin; vm_compute; reflexivity.
  - split; [|vm_compute; reflexivity]. apply Bltb_fin; vm_compute; reflexivity.
  - split; [reflexivity|]. split; [|vm_compute; reflexivity]. apply Bltb_fin; vm_compute; reflexivity.
  - intros x y z w. unfold qd_is_akin, q4. cbn [rd nth_error bind okb].
    assert (N : forall v, qd_apart f64_nan v f64_eps = false).
    { intros v. unfold qd_apart. assert (E : is_nan 53 1024 (b64_minus mode_NE f64_nan v) = true).
      { assert (V : value (b64_minus mode_NE f64_nan v) = NotANumber) by (rewrite value_minus; reflexivity).
        destruct (b64_minus mode_NE f64_nan v); try discriminate V. reflexivity. }
      destruct (b64_minus mode_NE f64_nan v); try discriminate E. reflexivity. }
    rewrite !N. reflexivity.
Qed.
Print Assumptions C163_is_akin_refuted.

Example C163_hypotheses_met :
  let p := fun k => nth k [f64_one; f64_two; f64_half; f64_zero] f64_zero in let q := fun k => nth k [f64_one; f64_one; f64_half; f64_one] f64_zero in
  (forall k, (k < 4)%nat -> fin (p k) /\ fin (q k)) /\ fin f64_two /\ val f64_two <= 2 ^ 127 /\
  (forall k, (k < 4)%nat -> Rabs (val (p k) - val (q k)) <= (1 - / 2 ^ 23) * val f64_two - / 2 ^ 149).
Proof.
  cbv zeta. split; [intros [|[|[|[|k]]]] Hk; try lia; split; reflexivity|]. split; [reflexivity|]. rewrite val_two. split.
  - replace 2 with (2 ^ 1) at 1 by ring. apply Rle_pow; [lra|lia].
  - assert (A : 0 < / 2 ^ 23 <= / 4). { split; [apply Rinv_0_lt_compat; lra|]. apply Rinv_le; [lra|]. replace 4 with (2 ^ 2) by ring. apply Rle_pow; [lra|lia]. }
    assert (B : 0 < / 2 ^ 149 <= / 4). { split; [apply Rinv_0_lt_compat, pow_lt; lra|]. apply Rinv_le; [lra|]. replace 4 with (2 ^ 2) by ring. apply Rle_pow; [lra|lia]. }
    assert (Z : val f64_zero = 0) by reflexivity.
    intros [|[|[|[|k]]]] Hk; try lia; cbn [nth]; rewrite ?val_one, ?val_two, ?val_half, ?Z; unfold Rabs; destruct (Rcase_abs _); lra.
Qed.
