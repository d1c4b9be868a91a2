(** Property C185: reciprocal(), reciprocal_safe() and sqrt_elementwise() of
    double vectors. *)
From Coq Require Import ZArith Reals Lra Bool.
From Flocq Require Import Core.Core IEEE754.BinarySingleNaN IEEE754.Binary IEEE754.Bits.
From Verif Require Import InstF LF64 LVector LMatrix LVector2 LVecProps2 Spec LSum PFloat LFloat PFloat2 LErr Spec10 LExt PFloat3 PFloat4 PAabbF PNan PQrF.
Import ListNotations.
Local Existing Instance F64Scalar.
Local Open Scope R_scope.
Local Notation rnd := (round radix2 (FLT_exp (-1074) 53) (Znearest (fun x => negb (Z.even x)))).
Local Notation bp := (bpow radix2).
Local Instance prec53r : Prec_gt_0 53.
Proof. reflexivity. Qed.
Local Instance vexpr : Valid_exp (FLT_exp (-1074) 53).
Proof. apply FLT_exp_valid. reflexivity. Qed.

(** [y] is what 1 / [x] yields: correctly signed infinities for zeros and for
    numbers too close to zero, 0 for infinities, and otherwise the reciprocal up
    to one rounding. *)
Definition recip_of (x y : f64) : Prop :=
  (value x = NotANumber -> value y = NotANumber) /\
  (forall s, value x = Infinity s -> value y = Number 0) /\
  (value x = Number 0 -> exists s, value y = Infinity s) /\
  (forall r, value x = Number r -> r <> 0 -> Rabs r <= / 2 ^ 1024 -> value y = Infinity (Rlt_bool r 0)) /\
  (forall r, value x = Number r -> / 2 ^ 1024 < Rabs r ->
     exists q, value y = Number q /\ Rabs (q - / r) <= / 2 ^ 53 * Rabs (/ r) + / 2 ^ 1075).

Lemma bp_inv1024 : / 2 ^ 1024 = bp (-1024).
Proof. replace (bp (-1024)) with (/ bp 1024) by (rewrite <- bpow_opp; reflexivity). f_equal. rewrite pow_IZR. reflexivity. Qed.
(** The next number after 2^-1024 is large enough. *)
Lemma step_up (x : f64) : fin x -> bp (-1024) < Rabs (val x) -> bp (-1024) + bp (-1074) <= Rabs (val x).
Proof.
  intros F H. assert (G : FLT_format radix2 (-1074) 53 (Rabs (val x))).
  { apply FLT_format_generic; [reflexivity|]. apply generic_format_abs, gen. }
  destruct G as [[m e] E _ He]. cbn [Fnum Fexp] in *. rewrite E in *. unfold F2R in *. cbn [Fnum Fexp] in *.
  assert (K : IZR m * bp e = IZR (m * 2 ^ (e + 1074)) * bp (-1074)).
  { rewrite mult_IZR. rewrite (IZR_Zpower radix2) by lia. rewrite Rmult_assoc, <- bpow_plus. do 2 f_equal. lia. }
  rewrite K in *. replace (bp (-1024)) with (IZR (2 ^ 50) * bp (-1074)) in *.
  2:{ rewrite (IZR_Zpower radix2) by lia. rewrite <- bpow_plus. reflexivity. }
  assert (P := bpow_gt_0 radix2 (-1074)). apply Rmult_lt_reg_r in H; [|exact P]. apply lt_IZR in H.
  replace (IZR (2 ^ 50) * bp (-1074) + bp (-1074)) with (IZR (2 ^ 50 + 1) * bp (-1074)) by (rewrite plus_IZR; ring).
  apply Rmult_le_compat_r; [lra|]. apply IZR_le. lia.
Qed.
Lemma recip_high (x : f64) : fin x -> bp (-1024) < Rabs (val x) -> fin (b64_div mode_NE f64_one x) /\ val (b64_div mode_NE f64_one x) = rnd (/ val x).
Proof.
  intros F H. pose proof (step_up x F H) as S. assert (P := bpow_gt_0 radix2 (-1024)). assert (P2 := bpow_gt_0 radix2 (-1074)).
  assert (NZ : val x <> 0) by (intros E; rewrite E, Rabs_R0 in H; lra).
  replace (/ val x) with (val f64_one / val x) by (rewrite val_one; field; exact NZ).
  apply div_fin; [reflexivity|exact NZ|]. rewrite val_one. replace (1 / val x) with (/ val x) by (field; exact NZ).
  apply Rle_lt_trans with (val f64_max); [|exact val_max_lt].
  apply abs_round_le_generic; [typeclasses eauto|apply valid_rnd_N|apply gen|]. rewrite Rabs_inv.
  apply Rle_trans with (/ (bp (-1024) + bp (-1074))); [apply Rinv_le; [lra|exact S]|].
  rewrite val_max. change (1024 - 53)%Z with (1024 + -53)%Z. rewrite bpow_plus.
  replace (bp (-1024)) with (/ bp 1024) by (rewrite <- bpow_opp; reflexivity).
  replace (bp (-1074)) with (/ bp 1024 * bp (-50)) by (rewrite <- bpow_opp, <- bpow_plus; reflexivity).
  assert (B := bpow_gt_0 radix2 1024). change (bp (-50)) with (/ IZR (2 ^ 50)). change (bp (-53)) with (/ IZR (2 ^ 53)). cbv [Z.pow Pos.iter Z.pow_pos Z.mul Pos.mul].
  replace (/ (/ bp 1024 + / bp 1024 * / 1125899906842624)) with (bp 1024 * (1125899906842624 / 1125899906842625)) by (field; lra).
  replace (bp 1024 - bp 1024 * / 9007199254740992) with (bp 1024 * (1 - / 9007199254740992)) by ring.
  apply Rmult_le_compat_l; lra.
Qed.
Lemma recip_low (x : f64) : fin x -> val x <> 0 -> Rabs (val x) <= bp (-1024) -> value (b64_div mode_NE f64_one x) = Infinity (Rlt_bool (val x) 0).
Proof.
  intros F NZ H.
  assert (O : bp 1024 <= Rabs (rnd (val f64_one / val x))).
  { rewrite val_one. replace (1 / val x) with (/ val x) by (field; exact NZ).
    apply abs_round_ge_generic; [typeclasses eauto|apply valid_rnd_N|apply format_bp; lia|].
    rewrite Rabs_inv. replace (bp 1024) with (/ bp (-1024)) by (rewrite <- bpow_opp; reflexivity).
    apply Rinv_le; [apply Rabs_pos_lt, NZ|exact H]. }
  unfold b64_div. match goal with |- context [Bdiv _ _ ?p ?q ?n _ _ _] => pose proof (Bdiv_correct 53 1024 p q n mode_NE f64_one x NZ) as C end. cbv zeta in C.
  unfold val in O. change (round radix2 _ (round_mode mode_NE) _) with (rnd (B2R 53 1024 f64_one / B2R 53 1024 x)) in C.
  rewrite Rlt_bool_false in C by exact O. apply value_inf. unfold val.
  etransitivity; [exact C|]. change (Bsign 53 1024 f64_one) with false. rewrite xorb_false_l.
  destruct (Bsign 53 1024 x) eqn:S.
  - rewrite Rlt_bool_true; [reflexivity|]. pose proof (sign_le0 x F S). unfold val in *. lra.
  - rewrite Rlt_bool_false; [reflexivity|]. apply (sign_ge0 x F S).
Qed.
Lemma recip_ok (x : f64) : recip_of x (b64_div mode_NE f64_one x).
Proof.
  split; [|split; [|split; [|split]]].
  - intros N. destruct x; try discriminate N. reflexivity.
  - intros s N. destruct x as [t|t|t p H|t m e H]; try discriminate N. reflexivity.
  - intros N. destruct x as [t|t|t p H|t m e H]; try discriminate N.
    + exists t. destruct t; vm_compute; reflexivity.
    + exfalso. injection N as N. apply eq_0_F2R in N. destruct t; discriminate N.
  - intros r N NZ H. apply value_number in N. destruct N as (F & <-). rewrite bp_inv1024 in H. apply recip_low; assumption.
  - intros r N H. apply value_number in N. destruct N as (F & <-). rewrite bp_inv1024 in H.
    destruct (recip_high x F H) as (Fy & Ey). exists (val (b64_div mode_NE f64_one x)). split; [apply value_fin, Fy|].
    rewrite Ey. destruct (rnd_error (/ val x)) as (d & e & Hd & He & ->).
    replace (/ val x * (1 + d) + e - / val x) with (d * / val x + e) by ring.
    eapply Rle_trans; [apply Rabs_triang|]. rewrite Rabs_mult. rewrite <- uro_2. apply Rplus_le_compat; [|exact He].
    apply Rmult_le_compat_r; [apply Rabs_pos|exact Hd].
Qed.

(** C185: reciprocals.  reciprocal_safe() replaces zeros by the largest double,
    but numbers up to 2^-1024 in magnitude still become infinite. *)
Theorem C185_reciprocal :
  forall (cfg : Cfg) (M : nat) (v : list f64) (f : nat -> f64), repV M v f ->
  returns (vec_reciprocal M v) (fun r => exists g, repV M r g /\ forall i, (i < M)%nat -> recip_of (f i) (g i)) /\
  returns (vec_reciprocal_safe M v) (fun r => exists g, repV M r g /\ forall i, (i < M)%nat ->
    (value (f i) = Number 0 -> g i = f64_max) /\ (value (f i) <> Number 0 -> recip_of (f i) (g i))).
Proof.
  intros cfg M v f Hv. split.
  - eapply returns_impl; [apply (vec_map_inplace M (fun a => sdiv sone a) v f (fun i => b64_div mode_NE f64_one (f i)) Hv); intros; reflexivity|].
    intros r Hr. eexists. split; [exact Hr|]. intros i Hi. apply recip_ok.
  - eapply returns_impl; [apply (vec_reciprocal_safe_spec M v f (fun i => if Beqb (f i) f64_zero then f64_max else b64_div mode_NE f64_one (f i)) Hv)|].
    + intros i Hi. cbn [seqb szero smax sdiv sone F64Scalar]. destruct (Beqb (f i) f64_zero); reflexivity.
    + intros r Hr. eexists. split; [exact Hr|]. intros i Hi. cbv beta. split.
      * intros N. apply value_number in N. destruct N as (F & N).
        replace (Beqb (f i) f64_zero) with true; [reflexivity|]. unfold Beqb, b64_compare. rewrite Bcompare_correct by (exact F || reflexivity).
        unfold val in N. rewrite N. change (B2R 53 1024 f64_zero) with 0. rewrite Rcompare_Eq; reflexivity.
      * intros N. destruct (Beqb (f i) f64_zero) eqn:E; [|apply recip_ok]. elim N.
        unfold Beqb, b64_compare in E. destruct (f i) as [s|s|s p H|s m e H] eqn:EF; [reflexivity|destruct s; discriminate E|discriminate E|].
        rewrite Bcompare_correct in E by reflexivity. destruct (Rcompare_spec (B2R 53 1024 (B754_finite 53 1024 s m e H)) (B2R 53 1024 f64_zero)) as [L|L|L] in E; try discriminate E.
        cbn [value]. rewrite L. reflexivity.
Qed.
Print Assumptions C185_reciprocal.

(** C185: applied twice, reciprocal() gives every number of normal size back up
    to 3 roundings. *)
Theorem C185_reciprocal_twice :
  forall (cfg : Cfg) (M : nat) (v : list f64) (f : nat -> f64), repV M v f ->
  (forall i, (i < M)%nat -> fin (f i) /\ / 2 ^ 1021 <= Rabs (val (f i)) <= 2 ^ 1021) ->
  returns (r <- vec_reciprocal M v ;; vec_reciprocal M r) (fun r => exists g, repV M r g /\ forall i, (i < M)%nat ->
    fin (g i) /\ Rabs (val (g i) - val (f i)) <= 3 * / 2 ^ 53 * Rabs (val (f i))).
Proof.
  intros cfg M v f Hv HF.
  assert (R1 : returns (vec_reciprocal M v) (fun r => repV M r (fun i => b64_div mode_NE f64_one (f i)))).
  { apply (vec_map_inplace M (fun a => sdiv sone a) v f _ Hv). intros; reflexivity. }
  destruct R1 as (r & E & Hr). rewrite E. cbn [bind].
  eapply returns_impl; [apply (vec_map_inplace M (fun a => sdiv sone a) r _ (fun i => b64_div mode_NE f64_one (b64_div mode_NE f64_one (f i))) Hr); intros; reflexivity|].
  intros r2 Hr2. eexists. split; [exact Hr2|]. intros i Hi. cbv beta. destruct (HF i Hi) as (F & Lo & Hi'). set (x := f i) in *.
  assert (Q : 2 ^ 1021 = bp 1021) by (rewrite pow_IZR; reflexivity). rewrite Q in *. rewrite <- bpow_opp in Lo. change (- (1021))%Z with (-1021)%Z in Lo.
  assert (P := bpow_gt_0 radix2 (-1021)). assert (NZ : val x <> 0) by (intros N; rewrite N, Rabs_R0 in Lo; lra).
  assert (H0 : bp (-1024) < Rabs (val x)) by (eapply Rlt_le_trans; [|exact Lo]; apply bpow_lt; lia).
  destruct (recip_high x F H0) as (Fy & Ey).
  assert (N1 : bp (-1022) <= Rabs (/ val x)).
  { rewrite Rabs_inv. replace (bp (-1022)) with (/ bp 1022) by (rewrite <- bpow_opp; reflexivity). apply Rinv_le; [apply Rabs_pos_lt, NZ|].
    eapply Rle_trans; [exact Hi'|]. apply bpow_le; lia. }
  destruct (rnd_rel _ N1) as (d & Hd & Ed). rewrite Ed in Ey. set (y := b64_div mode_NE f64_one x) in *.
  assert (U : uro = / 9007199254740992) by exact uro_val.
  rewrite U in Hd. apply Rabs_le_inv in Hd.
  assert (IP : 0 < Rabs (/ val x)) by (apply Rabs_pos_lt, Rinv_neq_0_compat, NZ).
  assert (Ay : Rabs (val y) = Rabs (/ val x) * (1 + d)) by (rewrite Ey, Rabs_mult, (Rabs_pos_eq (1 + d)) by lra; reflexivity).
  assert (H1 : bp (-1024) < Rabs (val y)).
  { rewrite Ay. apply Rlt_le_trans with (bp (-1022) * / 2); [replace (bp (-1024)) with (bp (-1022) * bp (-2)) by (rewrite <- bpow_plus; reflexivity); change (bp (-2)) with (/ 4); pose proof (bpow_gt_0 radix2 (-1022)); lra|].
    apply Rmult_le_compat; [apply bpow_ge_0|lra|exact N1|lra]. }
  destruct (recip_high y Fy H1) as (Fz & Ez). split; [exact Fz|].
  assert (NY : val y <> 0) by (intros N; rewrite N, Rabs_R0 in H1; pose proof (bpow_gt_0 radix2 (-1024)); lra).
  assert (IY : / val y = val x * / (1 + d)) by (rewrite Ey; field; split; [lra|exact NZ]).
  assert (N2 : bp (-1022) <= Rabs (/ val y)).
  { rewrite IY, Rabs_mult, (Rabs_pos_eq (/ (1 + d))) by (apply Rlt_le, Rinv_0_lt_compat; lra).
    replace (bp (-1022)) with (bp (-1021) * / 2) by (change (/ 2) with (bp (-1)); rewrite <- bpow_plus; reflexivity).
    apply Rmult_le_compat; [apply bpow_ge_0|lra|exact Lo|]. apply Rinv_le; lra. }
  destruct (rnd_rel _ N2) as (d2 & Hd2 & Ed2). rewrite Ez, Ed2, IY. rewrite U in Hd2. apply Rabs_le_inv in Hd2.
  replace (val x * / (1 + d) * (1 + d2) - val x) with ((d2 - d) / (1 + d) * val x) by (field; lra).
  rewrite Rabs_mult. apply Rmult_le_compat_r; [apply Rabs_pos|]. rewrite <- uro_2, U.
  unfold Rdiv. rewrite Rabs_mult, (Rabs_pos_eq (/ (1 + d))) by (apply Rlt_le, Rinv_0_lt_compat; lra).
  apply Rle_trans with ((2 * / 9007199254740992) * (3 / 2)); [|lra].
  apply Rmult_le_compat; [apply Rabs_pos|apply Rlt_le, Rinv_0_lt_compat; lra|apply Rabs_le; lra|].
  replace (3 / 2) with (/ (2 / 3)) by field. apply Rinv_le; lra.
Qed.
Print Assumptions C185_reciprocal_twice.

(** C185: square roots. *)
Theorem C185_sqrt :
  forall (cfg : Cfg) (M : nat) (v : list f64) (f : nat -> f64), repV M v f ->
  returns (vec_sqrt M v) (fun r => exists g, repV M r g /\ forall i, (i < M)%nat ->
    (value (f i) = NotANumber \/ value (f i) = Infinity true -> value (g i) = NotANumber) /\
    (value (f i) = Infinity false -> value (g i) = Infinity false) /\
    (forall x, value (f i) = Number x -> x < 0 -> value (g i) = NotANumber) /\
    (forall x, value (f i) = Number x -> 0 <= x -> exists y, value (g i) = Number y /\ 0 <= y /\ Rabs (y - sqrt x) <= / 2 ^ 53 * sqrt x)).
Proof.
  intros cfg M v f Hv.
  eapply returns_impl; [apply (vec_map_inplace M (fun a => ssqrt a) v f (fun i => b64_sqrt mode_NE (f i)) Hv); intros; reflexivity|].
  intros r Hr. eexists. split; [exact Hr|]. intros i Hi. cbv beta. rewrite !value_sqrt.
  split; [|split; [|split]].
  - intros [->| ->]; reflexivity.
  - intros ->; reflexivity.
  - intros x -> L. cbn [nsqrt]. rewrite Rlt_bool_true by exact L. reflexivity.
  - intros x E P. rewrite E. cbn [nsqrt]. rewrite Rlt_bool_false by exact P. apply value_number in E. destruct E as (F & <-).
    exists (rnd (sqrt (val (f i)))). split; [reflexivity|]. split; [apply rnd_nonneg, sqrt_pos|].
    destruct P as [P|P].
    + destruct (rnd_rel (sqrt (val (f i)))) as (d & Hd & ->).
      { rewrite Rabs_pos_eq by apply sqrt_pos. apply Rle_trans with (sqrt (bp (-2044))).
        - change (-2044)%Z with (-1022 + -1022)%Z. rewrite bpow_plus, sqrt_square by apply bpow_ge_0. apply Rle_refl.
        - apply sqrt_le_1_alt. apply Rle_trans with (bp (-1074)); [apply bpow_le; lia|].
          destruct (f i) as [s|s|s p H|s m e H]; try discriminate F; [cbn in P; lra|].
          rewrite <- (Rabs_pos_eq (val _)) by lra. unfold val. apply (abs_B2R_ge_emin 53 1024). reflexivity. }
      replace (sqrt (val (f i)) * (1 + d) - sqrt (val (f i))) with (d * sqrt (val (f i))) by ring.
      rewrite Rabs_mult, (Rabs_pos_eq (sqrt _)) by apply sqrt_pos. rewrite <- uro_2. apply Rmult_le_compat_r; [apply sqrt_pos|exact Hd].
    + rewrite <- P, sqrt_0, rnd_0, Rminus_0_r, Rabs_R0, Rmult_0_r. apply Rle_refl.
Qed.
Print Assumptions C185_sqrt.

(** Non-trivial instances: 2^-1024 is subnormal and its reciprocal infinite, the
    next double's is not; 3 satisfies the bounds of the round trip. *)
Example C185_hypotheses_met : forall cfg : Cfg,
  repV 2 [f64_two; f64_one] (fun i => nth i [f64_two; f64_one] f64_zero) /\
  match vec_reciprocal_safe 2 [b64_of_bits 0x0004000000000000; f64_zero] with Ok l => map bits_of_b64 l | _ => [] end = map bits_of_b64 [f64_inf; f64_max] /\
  (forall i, (i < 2)%nat -> fin (nth i [f64_two; f64_one] f64_zero) /\ / 2 ^ 1021 <= Rabs (val (nth i [f64_two; f64_one] f64_zero)) <= 2 ^ 1021).
Proof.
  intros cfg. split; [apply repV_nth; reflexivity|]. split.
  - vm_compute. reflexivity.
  - assert (Q : 2 ^ 1021 = bp 1021) by (rewrite pow_IZR; reflexivity). rewrite Q, <- bpow_opp.
    assert (B1 : bp (- (1021)) <= bp 0) by (apply bpow_le; lia). assert (B2 : bp 1 <= bp 1021) by (apply bpow_le; lia).
    assert (V2 : val f64_two = 2) by (unfold val; cbn; unfold F2R; cbn; lra).
    change (bp 0) with 1 in B1. change (bp 1) with 2 in B2.
    intros i Hi. destruct i as [|[|i]]; [| |lia]; cbn [nth]; (split; [reflexivity|]); rewrite ?V2, ?val_one, Rabs_pos_eq; lra.
Qed.
