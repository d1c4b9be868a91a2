(** Properties C135-C136: axis-aligned bounding boxes with double coordinates. *)
From Coq Require Import ZArith Reals Lra Psatz Bool.
From Flocq Require Import Core.Core IEEE754.BinarySingleNaN IEEE754.Binary IEEE754.Bits Plus_error.
From Verif Require Import InstF LF64 LVector LMatrix LVector2 Spec LSum PFloat LFloat PFloat2 LErr Spec10 LExt MAabb PAabb PFloat3 PFloat4.
Local Open Scope R_scope.
Local Existing Instance F64Scalar.
Local Notation rnd := (round radix2 (FLT_exp (-1074) 53) (Znearest (fun x => negb (Z.even x)))).
Local Notation bp := (bpow radix2).
Local Instance prec53a : Prec_gt_0 53.
Proof. reflexivity. Qed.
Local Instance vexpa : Valid_exp (FLT_exp (-1074) 53).
Proof. apply FLT_exp_valid. reflexivity. Qed.

Lemma rnx_mono_all x y : x <= y -> at_most (rnx x) (rnx y).
Proof.
  intros H. pose proof (rnd_mono x y H) as M. unfold rnx.
  destruct (Rlt_bool_spec (Rabs (rnd x)) (bp 1024)) as [X|X], (Rlt_bool_spec (Rabs (rnd y)) (bp 1024)) as [Y|Y].
  - exact M.
  - destruct (Rlt_bool_spec y 0) as [N|N]; cbn; [|exact I].
    pose proof (rnd_mono y 0 (Rlt_le _ _ N)) as N'. rewrite rnd_0 in N'. rewrite (Rabs_left1 _ N') in Y. rewrite Rabs_left1 in X by lra. lra.
  - destruct (Rlt_bool_spec x 0) as [N|N]; cbn; [exact I|].
    pose proof (rnd_nonneg x N) as N'. rewrite Rabs_pos_eq in X by lra. rewrite Rabs_pos_eq in Y by lra. lra.
  - destruct (Rlt_bool_spec x 0) as [N|N]; cbn; [exact I|]. rewrite Rlt_bool_false by lra. exact I.
Qed.
Lemma gen (x : f64) : generic_format radix2 (FLT_exp (-1074) 53) (val x).
Proof. unfold val. apply generic_format_B2R. Qed.
Lemma rnd_val (x : f64) : rnd (val x) = val x.
Proof. apply round_generic; [apply valid_rnd_N|apply gen]. Qed.
Lemma val_max_lt : val f64_max < bp 1024.
Proof. eapply Rle_lt_trans; [apply Rle_abs|]. unfold val. apply abs_B2R_lt_emax. Qed.

(** The centre of one axis: lo + (hi - lo) * 0.5. *)
Definition mid64 (lo hi : f64) : f64 := b64_plus mode_NE lo (b64_mult mode_NE (b64_minus mode_NE hi lo) f64_half).
Lemma mid_real (lo hi x y h c d d1 d2 d3 e m : R) : x = hi - lo -> 0 <= x -> Rabs lo <= m -> Rabs hi <= m ->
  lo <= lo + h <= hi -> y = x * (1 + d1) -> h = y * / 2 * (1 + d2) + e -> c = (lo + h) * (1 + d3) ->
  Rabs d1 <= uro -> Rabs d2 <= uro -> Rabs e <= eta -> Rabs d3 <= uro -> d = eta ->
  Rabs (c - (lo + hi) / 2) <= 4 * uro * m + d.
Proof.
  intros -> X0 Hl Hh HB -> -> -> H1 H2 He H3 ->.
  set (h := (hi - lo) * (1 + d1) * / 2 * (1 + d2) + e) in *.
  assert (Em : Rabs (lo + h) <= m) by (apply Rabs_le_inv in Hl, Hh; apply Rabs_le; lra).
  assert (EX : hi - lo <= 2 * m) by (apply Rabs_le_inv in Hl, Hh; lra).
  replace ((lo + h) * (1 + d3) - (lo + hi) / 2) with ((lo + h) * d3 + (hi - lo) * / 2 * (d1 + d2 + d1 * d2) + e) by (unfold h; field).
  eapply Rle_trans; [apply Rabs_triang|]. apply Rplus_le_compat; [|exact He].
  eapply Rle_trans; [apply Rabs_triang|].
  assert (P1 : Rabs ((lo + h) * d3) <= m * uro) by (rewrite Rabs_mult; apply Rmult_le_compat; try apply Rabs_pos; assumption).
  assert (P2 : Rabs (d1 + d2 + d1 * d2) <= 3 * uro).
  { assert (Q : Rabs (d1 * d2) <= uro * 1) by (rewrite Rabs_mult; apply Rmult_le_compat; try apply Rabs_pos; try assumption; rewrite uro_val in H2; lra).
    eapply Rle_trans; [apply Rabs_triang|]. eapply Rle_trans; [apply Rplus_le_compat_r, Rabs_triang|]. lra. }
  assert (P3 : Rabs ((hi - lo) * / 2 * (d1 + d2 + d1 * d2)) <= m * (3 * uro)).
  { rewrite Rabs_mult. apply Rmult_le_compat; try apply Rabs_pos; [|exact P2]. rewrite Rabs_pos_eq; lra. }
  lra.
Qed.
Lemma mid64_ok (lo hi : f64) : fin lo -> fin hi -> val lo <= val hi -> val hi - val lo <= val f64_max ->
  fin (mid64 lo hi) /\ val lo <= val (mid64 lo hi) <= val hi /\
  Rabs (val (mid64 lo hi) - (val lo + val hi) / 2) <= 4 * uro * Rmax (Rabs (val lo)) (Rabs (val hi)) + eta.
Proof.
  intros Fl Fh HL HM. pose proof val_max_lt as ML.
  set (x := val hi - val lo). assert (X0 : 0 <= x) by (unfold x; lra).
  assert (Y0 : 0 <= rnd x) by (apply rnd_nonneg, X0).
  assert (Y1 : rnd x <= val f64_max) by (rewrite <- rnd_val; apply rnd_mono; exact HM).
  destruct (minus_fin hi lo Fh Fl) as (Fy & Ey). { fold x. rewrite Rabs_pos_eq by exact Y0. lra. }
  fold x in Ey. set (y := b64_minus mode_NE hi lo) in *.
  assert (H0 : 0 <= rnd (val y * val f64_half)) by (apply rnd_nonneg; rewrite val_half, Ey; lra).
  assert (H1 : rnd (val y * val f64_half) <= val y) by (eapply Rle_trans; [|apply Req_le, rnd_val]; apply rnd_mono; rewrite val_half, Ey; lra).
  destruct (mult_fin y f64_half Fy eq_refl) as (Fh' & Eh). { rewrite Rabs_pos_eq by exact H0. eapply Rle_lt_trans; [exact H1|]. rewrite Ey. lra. }
  set (h := b64_mult mode_NE y f64_half) in *.
  assert (EO : val (b64_opp lo) = - val lo) by (unfold val, b64_opp; apply B2R_Bopp).
  destruct (plus_error hi (b64_opp lo)) as (d1 & Hd1 & E1). rewrite EO in E1. change (val hi + - val lo) with x in E1.
  assert (HX : val h <= x).
  { destruct (Rle_lt_dec x (bp (-1021))) as [C|C].
    - assert (G : rnd x = x).
      { apply round_generic; [apply valid_rnd_N|]. unfold x. apply (FLT_format_plus_small radix2 (-1074) 53); [apply gen|apply generic_format_opp, gen|].
        change (val hi + - val lo) with x. rewrite Rabs_pos_eq by exact X0. exact C. }
      rewrite Eh. eapply Rle_trans; [exact H1|]. rewrite Ey, G. apply Rle_refl.
    - assert (B1 : bp (-1021) <= rnd x). { rewrite <- (round_generic radix2 (FLT_exp (-1074) 53) (Znearest (fun x => negb (Z.even x))) (bp (-1021))) by (apply format_bp; lia). apply rnd_mono; lra. }
      destruct (rnd_rel (val y * val f64_half)) as (d & Hd & E).
      { rewrite val_half, Ey, Rabs_pos_eq by lra. change (-1022)%Z with (-1021 + -1)%Z. rewrite bpow_plus. change (bp (-1)) with (/ 2). lra. }
      rewrite Eh, E, Ey, E1, val_half. rewrite uro_val in *. apply Rabs_le_inv in Hd, Hd1.
      assert (0 <= x * (1 + d1)) by (apply Rmult_le_pos; lra). nra. }
  assert (HB : val lo <= val lo + val h <= val hi) by (rewrite Eh in *; split; [lra|unfold x in HX; lra]).
  assert (HR : val lo <= rnd (val lo + val h) <= val hi).
  { split; [rewrite <- (rnd_val lo) at 1|rewrite <- (rnd_val hi)]; apply rnd_mono; lra. }
  destruct (plus_fin lo h Fl Fh') as (Fc & Ec).
  { assert (A1 : Rabs (val lo) < bp 1024) by (unfold val; apply abs_B2R_lt_emax).
    assert (A2 : Rabs (val hi) < bp 1024) by (unfold val; apply abs_B2R_lt_emax).
    apply Rabs_def2 in A1, A2. apply Rabs_def1; lra. }
  split; [exact Fc|]. unfold mid64. fold y. fold h. rewrite Ec. split; [exact HR|].
  destruct (mult_error (val y) (val f64_half)) as (d2 & e & Hd2 & He & E2). rewrite <- Eh, val_half, Ey in E2.
  destruct (plus_error lo h) as (d3 & Hd3 & E3).
  eapply (mid_real (val lo) (val hi) x (rnd x) (val h) _ eta d1 d2 d3 e); try eassumption; try reflexivity; [apply Rmax_l|apply Rmax_r].
Qed.
Lemma box_getCenter_64 (cfg : Cfg) (lo hi : f64 * f64 * f64) : box_getCenter (l3 lo, l3 hi) = Ok (l3 (zip3 mid64 lo hi)).
Proof.
  destruct lo as [[x y] z], hi as [[x' y'] z']. unfold box_getCenter, vec_sub, vec_mul_s, vec_add, vec_zip, vec_map. destruct safe; reflexivity.
Qed.

(** C135: membership is decided exactly. *)
Lemma Bltb_false_iff (x y : f64) : value x <> NotANumber -> value y <> NotANumber -> (Bltb x y = false <-> at_most (value y) (value x)).
Proof. intros X Y. rewrite (Bltb_negb x y X Y), negb_false_iff. apply Bleb_at_most. Qed.
Theorem C135_isIn :
  forall (cfg : Cfg) (lo hi p : f64 * f64 * f64),
  (forall k, (k < 3)%nat -> value (comp k lo) <> NotANumber /\ value (comp k hi) <> NotANumber /\ value (comp k p) <> NotANumber) ->
  exists b, box_isIn (l3 lo, l3 hi) (l3 p) = Ok b /\
  (b = true <-> forall k, (k < 3)%nat -> at_most (value (comp k lo)) (value (comp k p)) /\ at_most (value (comp k p)) (value (comp k hi))).
Proof.
  intros cfg lo hi p NN. pose proof (box_isIn_l3 lo hi p) as E. pose proof (box_isIn_true lo hi p) as K. rewrite E in K |- *.
  match goal with |- context [Ok ?c] => set (b := c) in * end. exists b. split; [reflexivity|].
  transitivity (Ok b = Ok true); [split; congruence|]. rewrite K. cbn [sltb F64Scalar].
  split; intros H k Hk; specialize (H k Hk); destruct (NN k Hk) as (N1 & N2 & N3).
  - destruct H as (H1 & H2). apply Bltb_false_iff in H1, H2; tauto.
  - rewrite !Bltb_false_iff by assumption. tauto.
Qed.
Print Assumptions C135_isIn.

(** C135: a point of a box stays inside when the box and the point are scaled by
    the same non-negative factor or shifted by the same amount, although every
    coordinate is rounded (and may even overflow). *)
Theorem C135_scaling_keeps_points :
  forall (cfg : Cfg) (lo hi p : f64 * f64 * f64) (s : f64),
  (forall k, (k < 3)%nat -> fin (comp k lo) /\ fin (comp k hi) /\ fin (comp k p)) -> fin s ->
  box_isIn (l3 lo, l3 hi) (l3 p) = Ok true ->
  (0 <= val s -> (b <- box_mul (l3 lo, l3 hi) s ;; q <- vec_mul_s 3 (l3 p) s ;; box_isIn b q) = Ok true) /\
  (b <- box_add (l3 lo, l3 hi) s ;; q <- vec_add_s 3 (l3 p) s ;; box_isIn b q) = Ok true /\
  (b <- box_sub (l3 lo, l3 hi) s ;; q <- vec_sub_s 3 (l3 p) s ;; box_isIn b q) = Ok true.
Proof.
  intros cfg lo hi p s HF Fs HI.
  destruct (C67_scalar_operators cfg f64 F64Scalar lo hi s) as (E1 & E2 & E3 & _).
  assert (Q1 : vec_mul_s 3 (l3 p) s = Ok (l3 (map3 (fun x => smul x s) p))) by (destruct p as [[x y] z]; unfold vec_mul_s, vec_map; destruct safe; reflexivity).
  assert (Q2 : vec_add_s 3 (l3 p) s = Ok (l3 (map3 (fun x => sadd x s) p))) by (destruct p as [[x y] z]; unfold vec_add_s, vec_map; destruct safe; reflexivity).
  assert (Q3 : vec_sub_s 3 (l3 p) s = Ok (l3 (map3 (fun x => ssub x s) p))) by (destruct p as [[x y] z]; unfold vec_sub_s, vec_map; destruct safe; reflexivity).
  rewrite E1, E2, E3, Q1, Q2, Q3. cbn [bind].
  rewrite box_isIn_true in HI. cbn [sltb F64Scalar] in HI.
  assert (CM : forall (f : f64 -> f64) k q, comp k (map3 f q) = f (comp k q)) by (intros f k [[x y] z]; destruct k as [|[|k]]; reflexivity).
  assert (K : forall f : f64 -> f64, (forall x, fin x -> value (f x) <> NotANumber) ->
     (forall x y, fin x -> fin y -> val x <= val y -> at_most (value (f x)) (value (f y))) ->
     box_isIn (l3 (map3 f lo), l3 (map3 f hi)) (l3 (map3 f p)) = Ok true).
  { intros f NN MO. apply box_isIn_true. intros k Hk. rewrite !CM. cbn [sltb F64Scalar]. destruct (HF k Hk) as (F1 & F2 & F3). destruct (HI k Hk) as (H1 & H2).
    rewrite !Bltb_false_iff by (apply NN; assumption). apply (Bltb_fin_false _ _ F2 F3) in H1. apply (Bltb_fin_false _ _ F3 F1) in H2.
    split; apply MO; assumption. }
  assert (RN : forall r, rnx r <> NotANumber) by (intros r; unfold rnx; destruct (Rlt_bool _ _); discriminate).
  split; [|split].
  - intros Hs. apply K; cbn [smul F64Scalar].
    + intros x Fx. rewrite value_mult, (value_fin x Fx), (value_fin s Fs). apply RN.
    + intros x y Fx Fy L. rewrite !value_mult, (value_fin x Fx), (value_fin y Fy), (value_fin s Fs). apply rnx_mono_all. apply Rmult_le_compat_r; assumption.
  - apply K; cbn [sadd F64Scalar].
    + intros x Fx. rewrite value_plus, (value_fin x Fx), (value_fin s Fs). apply RN.
    + intros x y Fx Fy L. rewrite !value_plus, (value_fin x Fx), (value_fin y Fy), (value_fin s Fs). apply rnx_mono_all. lra.
  - apply K; cbn [ssub F64Scalar].
    + intros x Fx. rewrite value_minus, (value_fin x Fx), (value_fin s Fs). apply RN.
    + intros x y Fx Fy L. rewrite !value_minus, (value_fin x Fx), (value_fin y Fy), (value_fin s Fs). apply rnx_mono_all. lra.
Qed.
Print Assumptions C135_scaling_keeps_points.

(** C136: getCenter() of a box whose sides do not exceed the largest double lies
    in the box and is accurate. *)
Theorem C136_center_partial :
  forall (cfg : Cfg) (lo hi : f64 * f64 * f64),
  (forall k, (k < 3)%nat -> fin (comp k lo) /\ fin (comp k hi) /\ val (comp k lo) <= val (comp k hi) /\
     val (comp k hi) - val (comp k lo) <= val f64_max) ->
  exists c, box_getCenter (l3 lo, l3 hi) = Ok (l3 c) /\ box_isIn (l3 lo, l3 hi) (l3 c) = Ok true /\
  forall k, (k < 3)%nat -> fin (comp k c) /\
    Rabs (val (comp k c) - (val (comp k lo) + val (comp k hi)) / 2)
      <= 4 * / 2 ^ 53 * Rmax (Rabs (val (comp k lo))) (Rabs (val (comp k hi))) + / 2 ^ 1075.
Proof.
  intros cfg lo hi H. exists (zip3 mid64 lo hi). split; [apply box_getCenter_64|].
  assert (CZ : forall k, comp k (zip3 mid64 lo hi) = mid64 (comp k lo) (comp k hi)).
  { intros k. destruct lo as [[x y] z], hi as [[x' y'] z']. destruct k as [|[|k]]; reflexivity. }
  rewrite <- uro_2. change (/ 2 ^ 1075) with eta. split.
  - apply box_isIn_true. intros k Hk. rewrite CZ. cbn [sltb F64Scalar]. destruct (H k Hk) as (F1 & F2 & L & M).
    destruct (mid64_ok _ _ F1 F2 L M) as (Fc & (B1 & B2) & _). rewrite (Bltb_fin_false _ _ F2 Fc), (Bltb_fin_false _ _ Fc F1). split; assumption.
  - intros k Hk. rewrite CZ. destruct (H k Hk) as (F1 & F2 & L & M). destruct (mid64_ok _ _ F1 F2 L M) as (Fc & _ & E). split; [exact Fc|exact E].
Qed.
Print Assumptions C136_center_partial.

(** C136 fails beyond: the box of all finite points has a centre at infinity,
    which is not in it; and a point with NaN coordinates is in every box. *)
Theorem C136_overflow_and_nan_refuted :
  forall (cfg : Cfg),
  (exists c, box_getCenter (l3 (f64_lowest, f64_lowest, f64_lowest), l3 (f64_max, f64_max, f64_max)) = Ok c /\
     c = [f64_inf; f64_inf; f64_inf] /\
     box_isIn (l3 (f64_lowest, f64_lowest, f64_lowest), l3 (f64_max, f64_max, f64_max)) c = Ok false) /\
  (forall (lo hi p : f64 * f64 * f64), (forall k, (k < 3)%nat -> value (comp k p) = NotANumber) ->
     box_isIn (l3 lo, l3 hi) (l3 p) = Ok true).
Proof.
  intros cfg. split.
  - exists [f64_inf; f64_inf; f64_inf]. rewrite box_getCenter_64. split; [|split; [reflexivity|vm_compute; reflexivity]].
    assert (E : mid64 f64_lowest f64_max = f64_inf) by (apply B2FF_inj; vm_compute; reflexivity).
    unfold zip3. rewrite E. reflexivity.
  - intros lo hi p H. apply box_isIn_true. intros k Hk. specialize (H k Hk). cbn [sltb F64Scalar].
    destruct (comp k p) as [s|s|s p0 H0|s m e H0]; try discriminate H. split; unfold Bltb, b64_compare; [destruct (comp k hi)|destruct (comp k lo)]; reflexivity.
Qed.
Print Assumptions C136_overflow_and_nan_refuted.

(** Non-trivial instances: the box [1, 2]^3 and the point (1.5, 2, 1), scaled by
    0.5; the centre of [1, 1 + 2^-52]^3 is one of its corners. *)
Example C135_hypotheses_met : forall cfg : Cfg,
  let lo := (f64_one, f64_one, f64_one) in let hi := (f64_two, f64_two, f64_two) in
  let p := (b64_of_bits 0x3FF8000000000000, f64_two, f64_one) in
  (forall k, (k < 3)%nat -> fin (comp k lo) /\ fin (comp k hi) /\ fin (comp k p)) /\
  box_isIn (l3 lo, l3 hi) (l3 p) = Ok true /\ 0 <= val f64_half.
Proof.
  intros cfg. cbv zeta. split; [|split; [vm_compute; reflexivity|rewrite val_half; lra]].
  intros k Hk. destruct k as [|[|[|k]]]; try lia; repeat split; reflexivity.
Qed.
Example C136_hypotheses_met : forall cfg : Cfg,
  let lo := (f64_one, f64_one, f64_one) in let hi := (f64_two, f64_two, f64_next1) in
  (forall k, (k < 3)%nat -> fin (comp k lo) /\ fin (comp k hi) /\ val (comp k lo) <= val (comp k hi) /\
     val (comp k hi) - val (comp k lo) <= val f64_max) /\
  bitsl (box_getCenter (l3 lo, l3 hi)) = Some [0x3FF8000000000000; 0x3FF8000000000000; 0x3FF0000000000000]%Z.
Proof.
  assert (A : val f64_one <= val f64_next1) by (apply Bleb_fin; reflexivity).
  assert (B : val f64_next1 <= val f64_two) by (apply Bleb_fin; reflexivity).
  assert (C : val f64_one <= val f64_max) by (apply Bleb_fin; reflexivity).
  rewrite val_one in A, C. rewrite val_two in B.
  intros [[|]]; cbv zeta; (split; [|vm_compute; reflexivity]); intros k Hk; destruct k as [|[|[|k]]]; try lia; cbn [comp fst snd]; rewrite ?val_one, ?val_two;
    (split; [reflexivity|split; [reflexivity|split; lra]]).
Qed.
