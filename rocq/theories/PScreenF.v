(** Property C224: where a point ends up on the screen after a history of calls, in double. *)
From Coq Require Import ZArith Reals Lra Psatz List.
From Flocq Require Import Core.Core IEEE754.BinarySingleNaN IEEE754.Binary IEEE754.Bits.
From Verif Require Import InstF MMatrix LBase LVector LVectorR LVecProps2 LMatrix LMat4 MFrustum Spec Spec3 Spec4 Spec11 Spec12 Spec13 Spec14 Spec16 Spec17 Spec19 LSum LWorld LEdit LEye LScreen PCuller PFloat LFloat PFloat2 LErr PCuller3 PCuller4 PMatrix3 PRayF PQrF PQrO PChain LRot PRotF PMoveF PEditF PWorldF PHomF PEyeF.
Import ListNotations.
Local Open Scope R_scope.
Local Open Scope list_scope.
Local Existing Instance F64Scalar.
Local Notation bp := (bpow radix2).
Local Notation frobR := Spec14.frobR.

Lemma tiny_point : 5 * eta * 2 ^ 202 <= uro * / 2 ^ 390.
Proof.
  unfold eta, uro. rewrite (pow_step 202 873 : / 2 ^ 1075 = / 2 ^ 202 * / 2 ^ 873), (pow_step 390 483 : / 2 ^ 873 = / 2 ^ 390 * / 2 ^ 483), (pow_step 53 430 : / 2 ^ 483 = / 2 ^ 53 * / 2 ^ 430).
  pose proof (inv_small 390) as (A & _). pose proof (inv_small 53) as (D & _).
  assert (T : / 2 ^ 430 <= / 8). { apply Rinv_le_contravar; [lra|]. replace 8 with (2 ^ 3) by ring. apply Rle_pow; [lra|lia]. }
  replace (5 * (/ 2 ^ 202 * (/ 2 ^ 390 * (/ 2 ^ 53 * / 2 ^ 430))) * 2 ^ 202) with (/ 2 ^ 53 * / 2 ^ 390 * (5 * / 2 ^ 430)).
  - assert (0 < / 2 ^ 53 * / 2 ^ 390) by (apply Rmult_lt_0_compat; assumption). rewrite <- (Rmult_1_r (/ 2 ^ 53 * / 2 ^ 390)) at 2. apply Rmult_le_compat_l; lra.
  - pose proof (pow_nonzero 2 202 ltac:(lra)) as N. set (a := 2 ^ 202) in *. set (b := / 2 ^ 53). set (c := / 2 ^ 390). set (f := / 2 ^ 430). field. exact N.
Qed.
Lemma eta_small : 0 < eta <= / 1000.
Proof.
  unfold eta. split; [apply pow_pos_inv|]. apply Rinv_le_contravar; [lra|]. apply Rle_trans with (2 ^ 10); [lra|]. apply Rle_pow; [lra|lia].
Qed.
(** The product of two matrices in range is close to the product of their values. *)
Lemma product_cells (cfg : Cfg) (P V : list f64) : mat_range P -> mat_range V ->
  exists m, mat_mul 4 4 4 P V = Ok m /\ length m = 16%nat /\ (forall x, In x m -> fin x) /\
  forall i j, (i < 4)%nat -> (j < 4)%nat -> Rabs (mcells 4 m i j - mmulR 4 (mcells 4 P) (mcells 4 V) i j) <= 9 / 2 * uro * mmulR 4 (absM (mcells 4 P)) (absM (mcells 4 V)) i j + 9 / 2 * eta.
Proof.
  intros HP HV. pose proof (repM_nth 4 4 P f64_zero (proj1 HP)) as RP. pose proof (repM_nth 4 4 V f64_zero (proj1 HV)) as RV.
  destruct (mat_mul_spec 4 4 4 P V _ _ RP RV) as (m & Em & Hm). cbv beta in Hm. destruct Hm as (Lm & Cm).
  exists m. split; [exact Em|]. split; [exact Lm|].
  assert (NT : forall i j, (i < 4)%nat -> (j < 4)%nat -> nth (j * 4 + i) m f64_zero = ssum 4 (fun k => smul (nth (k * 4 + i) P f64_zero) (nth (j * 4 + k) V f64_zero))).
  { intros i j Hi Hj. apply nth_error_nth. apply Cm; assumption. }
  split.
  - intros x Hx. destruct (In_nth m x f64_zero Hx) as (n & Hn & <-). rewrite Lm in Hn.
    replace n with (n / 4 * 4 + n mod 4)%nat by (pose proof (Nat.div_mod n 4 ltac:(lia)); lia).
    rewrite NT by (first [apply Nat.mod_upper_bound; lia|apply Nat.div_lt_upper_bound; lia]).
    apply cell_ok; intros k Hk; apply range_cell; first [assumption|apply Nat.mod_upper_bound; lia|apply Nat.div_lt_upper_bound; lia].
  - intros i j Hi Hj. unfold mcells at 1. rewrite NT by assumption.
    apply (cell_err (fun k => nth (k * 4 + i) P f64_zero) (fun k => nth (j * 4 + k) V f64_zero)); intros k Hk; apply range_cell; assumption.
Qed.

(** C224: the view matrix is built by any sequence of transformation calls and
    multiplied with a projection matrix; a point transformed with the product
    (with the division by w) lands where the exact matrices put it, up to a
    relative error. *)
Theorem C224_screen_position :
  forall (cfg : Cfg) (TT : Trig f64) (d : R) (P m0 v : list f64) (l : list edit),
  0 <= d <= / 100 -> good_trig TT d -> mat_range P -> length m0 = 16%nat -> (forall x, In x m0 -> fin x) -> Forall ok_edit l ->
  length v = 3%nat -> (forall x, In x v -> fin x /\ Rabs (val x) <= 2 ^ 200) ->
  let e := 2 * INR (length l) * (2 * d + 43 / 10 / 2 ^ 53) in
  let B := reachR (map real_edit l) (frobR 4 (mcells 4 m0) + / 2 ^ 1000) in
  let p := frobR 4 (mcells 4 P) in
  let G := mmulR 4 (mcells 4 P) (historyR (map real_edit l) (mcells 4 m0)) in
  let w := screenW G (vcells v) in
  let k := spread p B (vcells v) w in
  e <= 1 -> B <= 2 ^ 69 -> p * B <= 2 ^ 150 -> / 2 ^ 390 <= Rabs w -> (16 * e + 320 / 2 ^ 53) * k <= 1 ->
  exists V m r, edit_all m0 l = Ok V /\ mat_mul 4 4 4 P V = Ok m /\ mat_mul_hom 4 4 3 m v = Ok r /\
  length r = 3%nat /\ (forall x, In x r -> fin x) /\
  forall i, (i < 3)%nat ->
    Rabs (vcells r i - screenR G (vcells v) i) <= (4 * e + 100 / 2 ^ 53) * k * (1 + Rabs (screenR G (vcells v) i)).
Proof.
  intros cfg TT d P m0 v l Hd HT HP L0 F0 HO Lv Fv e B p G w k He HB HpB Hw Hk.
  assert (B1000 : B <= 2 ^ 1000) by (eapply Rle_trans; [exact HB|]; apply Rle_pow; [lra|lia]).
  destruct (C220_transformation_histories cfg TT d m0 l Hd HT L0 F0 HO He B1000) as (V & EV & LV & FV & HX & HV).
  fold B in HX, HV. fold e in HV. set (X := historyR (map real_edit l) (mcells 4 m0)) in *.
  pose proof (inv_small 53) as I53. pose proof (inv_small 390) as I390. pose proof eta_small as ES.
  assert (He0 : 0 <= e <= 1). { split; [|exact He]. unfold e. apply Rmult_le_pos; [pose proof (pos_INR (length l)); lra|]. lra. }
  assert (R1 : mat_range V).
  { split; [exact LV|]. intros x Hx. split; [exact (FV x Hx)|]. destruct (In_nth V x f64_zero Hx) as (n & Hn & <-). rewrite LV in Hn.
    pose proof (V_le (mcells 4 V) X B e HX HV He0) as VB.
    pose proof (entry_frob (mcells 4 V) (n mod 4) (n / 4) (Nat.mod_upper_bound n 4 ltac:(lia)) ltac:(apply Nat.div_lt_upper_bound; lia)) as EN.
    unfold mcells in EN at 1. replace (n / 4 * 4 + n mod 4)%nat with n in EN by (pose proof (Nat.div_mod n 4 ltac:(lia)); lia).
    replace (2 ^ 70) with (2 * 2 ^ 69) by ring. lra. }
  destruct (product_cells cfg P V HP R1) as (m & Em & Lm & Fm & CE).
  assert (HU : 0 < uro <= / 100000) by (rewrite uro_val; lra). change (/ 2 ^ 53) with uro in *.
  pose proof (M_cell (mcells 4 P) (mcells 4 V) X (mcells 4 m) B e uro eta HX HV He0 HU CE) as MC. fold p in MC.
  assert (B200 : 21 / 10 * (p * B) + 9 / 2 * eta <= 2 ^ 200).
  { apply Rle_trans with (4 * 2 ^ 150); [assert (1 <= 2 ^ 150) by (apply pow_R1_Rle; lra); lra|]. replace (4 * 2 ^ 150) with (2 ^ 152) by ring. apply Rle_pow; [lra|lia]. }
  assert (RM : forall x, In x m \/ In x v -> fin x /\ Rabs (val x) <= 2 ^ 200).
  { intros x [Hx|Hx]; [|exact (Fv x Hx)]. split; [exact (Fm x Hx)|]. destruct (In_nth m x f64_zero Hx) as (n & Hn & <-). rewrite Lm in Hn.
    pose proof (MC (n mod 4)%nat (n / 4)%nat (Nat.mod_upper_bound n 4 ltac:(lia)) ltac:(apply Nat.div_lt_upper_bound; lia)) as EN.
    unfold mcells in EN. replace (n / 4 * 4 + n mod 4)%nat with n in EN by (pose proof (Nat.div_mod n 4 ltac:(lia)); lia). lra. }
  set (vc := vcells v) in *. set (N1 := rsum 3 (fun i => Rabs (vc i)) + 1).
  assert (HN : 1 <= N1 <= 2 ^ 202).
  { split; [apply rsum1_pos|]. assert (Q : forall i, (i < 3)%nat -> Rabs (vc i) <= 2 ^ 200). { intros i Hi. apply Fv. apply nth_In. lia. }
    pose proof (Q 0%nat ltac:(lia)). pose proof (Q 1%nat ltac:(lia)). pose proof (Q 2%nat ltac:(lia)). unfold N1. cbn [rsum]. replace (2 ^ 202) with (4 * 2 ^ 200) by ring. assert (1 <= 2 ^ 200) by (apply pow_R1_Rle; lra). lra. }
  set (W := Rabs w) in *. assert (W0 : 0 < W) by lra.
  assert (WS : W <= p * B * N1) by (apply (W_spread (mcells 4 P) X B HX vc)).
  assert (K1 : 1 <= k). { unfold k, spread. fold N1 W. apply (Rmult_le_reg_r W); [exact W0|]. unfold Rdiv. rewrite Rmult_assoc, Rinv_l by lra. lra. }
  assert (TN : 5 * eta * N1 <= uro * W).
  { apply Rle_trans with (5 * eta * 2 ^ 202); [apply Rmult_le_compat_l; lra|]. eapply Rle_trans; [exact tiny_point|]. apply Rmult_le_compat_l; lra. }
  set (al := (e + 20 * uro) * k + 2 * uro).
  assert (AW : (e + 20 * uro) * (p * B * N1) + 10 * (eta * N1) <= al * W).
  { unfold al. assert (kW : k * W = p * B * N1) by (unfold k, spread; fold N1 W; field; lra). rewrite <- kW. lra. }
  assert (AL : 0 <= al <= / 8).
  { unfold al. assert (0 <= (e + 20 * uro) * k) by (apply Rmult_le_pos; lra). unfold Rdiv in Hk. change (/ 2 ^ 53) with uro in Hk. assert (uro * k >= 0) by (apply Rle_ge, Rmult_le_pos; lra). split; [lra|]. lra. }
  pose proof (hom_total (mcells 4 P) (mcells 4 V) X (mcells 4 m) B e uro eta HX HV He0 HU ES CE vc (homErr 3 (mcells 4 m) vc)) as HTt. fold G N1 in HTt. fold p in HTt.
  assert (HEB : forall i, homErr 3 (mcells 4 m) vc i <= 9 / 2 * uro * homR 3 (absM (mcells 4 m)) (fun j => Rabs (vc j)) i + 4 * eta /\ 0 <= homErr 3 (mcells 4 m) vc i).
  { intros i. unfold homErr. change (3 + 1)%nat with 4%nat. change (/ 2 ^ 53) with uro.
    assert (HA : 0 <= homR 3 (absM (mcells 4 m)) (fun j => Rabs (vc j)) i).
    { unfold homR, mvecR, hom1, absM. cbn [rsum Nat.add Nat.ltb Nat.leb].
      repeat apply Rplus_le_le_0_compat; try lra; apply Rmult_le_pos; try apply Rabs_pos; lra. }
    set (hh := homR 3 (absM (mcells 4 m)) (fun j => Rabs (vc j)) i) in *.
    assert (Q : 1 <= (1 + uro) ^ 4 <= 1 + 9 / 2 * uro /\ (1 + uro) ^ 4 <= 9 / 8) by (rewrite uro_val; lra). destruct Q as ((Q1 & Q2) & Q3).
    rewrite INR_IZR_INZ. change (Z.of_nat 3) with 3%Z. unfold Rdiv at 1 3. change (/ 2 ^ 1075) with eta.
    assert (0 <= (1 + uro) ^ 4 * eta <= 9 / 8 * eta) by (split; [apply Rmult_le_pos; lra|apply Rmult_le_compat_r; lra]).
    assert (0 <= ((1 + uro) ^ 4 - 1) * hh <= 9 / 2 * uro * hh) by (split; [apply Rmult_le_pos; lra|apply Rmult_le_compat_r; lra]).
    rewrite (Rmult_assoc 3). split; lra. }
  assert (TOT : forall i, (i < 4)%nat -> Rabs (homR 3 (mcells 4 m) vc i - homR 3 G vc i) + homErr 3 (mcells 4 m) vc i <= al * W).
  { intros i Hi. eapply Rle_trans; [apply HTt; [exact Hi|apply HEB]|exact AW]. }
  assert (aW : al * W <= / 8 * W) by (apply Rmult_le_compat_r; lra).
  pose proof (TOT 3%nat ltac:(lia)) as T3. change (homR 3 G vc 3) with w in T3. pose proof (proj2 (HEB 3%nat)) as E3.
  assert (WL : 7 / 8 * W <= Rabs (homR 3 (mcells 4 m) vc 3)).
  { pose proof (Rabs_triang (homR 3 (mcells 4 m) vc 3) (- (homR 3 (mcells 4 m) vc 3 - w))) as T. replace (homR 3 (mcells 4 m) vc 3 + - (homR 3 (mcells 4 m) vc 3 - w)) with w in T by ring. rewrite Rabs_Ropp in T. fold W in T. lra. }
  assert (P400 : / 2 ^ 400 <= 7 / 8 * / 2 ^ 390).
  { rewrite (pow_step 390 10 : / 2 ^ 400 = / 2 ^ 390 * / 2 ^ 10). replace (2 ^ 10) with 1024 by ring. lra. }
  pose proof (Rabs_pos (homR 3 (mcells 4 m) vc 3 - w)) as D3.
  destruct (C151_homogeneous_double cfg 3 m v) as (r & Er & Lr & Fr & Hr).
  - exact Lm.
  - exact Lv.
  - lia.
  - exact RM.
  - fold vc. change (3 + 1)%nat with 4%nat. lra.
  - fold vc. change (3 + 1)%nat with 4%nat. lra.
  - cbv zeta in Hr. change (3 + 1)%nat with 4%nat in Hr, Er. fold vc in Hr.
    exists V, m, r. repeat (split; [assumption|]). intros i Hi. pose proof (Hr i Hi) as H. change (/ 2 ^ 1075) with eta in H. change (/ 2 ^ 53) with uro in H.
    pose proof (screen_bound uro eta al (homR 3 G vc i) (homR 3 (mcells 4 m) vc i) w (homR 3 (mcells 4 m) vc 3) (homErr 3 (mcells 4 m) vc i) (homErr 3 (mcells 4 m) vc 3) (vcells r i)
      ltac:(lra) W0 (proj2 (HEB i)) E3 AL (TOT i ltac:(lia)) T3 H) as SB.
    unfold screenR. fold w. set (q := Rabs (homR 3 G vc i / w)) in *. assert (Q0 : 0 <= q) by apply Rabs_pos.
    eapply Rle_trans; [exact SB|].
    assert (ET : eta <= uro). { assert (eta * 1 <= eta * N1) by (apply Rmult_le_compat_l; lra). assert (E5 : eta <= uro * / 2 ^ 390). { eapply Rle_trans; [|exact tiny_point]. assert (1 <= 2 ^ 202) by (apply pow_R1_Rle; lra). rewrite <- (Rmult_1_r eta) at 1. assert (eta * 1 <= eta * 2 ^ 202) by (apply Rmult_le_compat_l; lra). assert (0 <= eta * 2 ^ 202) by (apply Rmult_le_pos; lra). lra. }
      eapply Rle_trans; [exact E5|]. rewrite <- (Rmult_1_r uro) at 2. apply Rmult_le_compat_l; lra. }
    assert (UK : uro * 1 <= uro * k) by (apply Rmult_le_compat_l; lra).
    assert (U1 : 4 * al + 2 * uro <= (4 * e + 99 * uro) * k) by (unfold al; lra).
    assert (U2 : (4 * al + 2 * uro) * (1 + q) <= (4 * e + 99 * uro) * k * (1 + q)) by (apply Rmult_le_compat_r; lra).
    assert (U3 : uro * k * 1 <= uro * k * (1 + q)) by (apply Rmult_le_compat_l; [apply Rmult_le_pos; lra|lra]).
    unfold Rdiv. change (/ 2 ^ 53) with uro. replace ((4 * e + 100 * uro) * k * (1 + q)) with ((4 * e + 99 * uro) * k * (1 + q) + uro * k * (1 + q)) by ring. lra.
Qed.
Print Assumptions C224_screen_position.

Definition exv : list f64 := [f64_one; f64_half; b64_opp f64_two].
Example C224_hypotheses_met :
  let e := 2 * INR (length exh) * (2 * / 2 ^ 52 + 43 / 10 / 2 ^ 53) in
  let B := reachR (map real_edit exh) (frobR 4 (mcells 4 id64) + / 2 ^ 1000) in
  let p := frobR 4 (mcells 4 exP) in
  let w := screenW (mmulR 4 (mcells 4 exP) (historyR (map real_edit exh) (mcells 4 id64))) (vcells exv) in
  good_trig grid_trig (/ 2 ^ 52) /\ mat_range exP /\ length id64 = 16%nat /\ (forall x, In x id64 -> fin x) /\ Forall ok_edit exh /\
  length exv = 3%nat /\ (forall x, In x exv -> fin x /\ Rabs (val x) <= 2 ^ 200) /\
  e <= 1 /\ B <= 2 ^ 69 /\ p * B <= 2 ^ 150 /\ / 2 ^ 390 <= Rabs w /\ (16 * e + 320 / 2 ^ 53) * spread p B (vcells exv) w <= 1.
Proof.
  intros e B p w. destruct exvals as (V1 & V2). assert (Z0 : val f64_zero = 0) by reflexivity.
  destruct C222_hypotheses_met as (H1 & H2 & H3 & H4 & H5 & _ & _ & H6 & H7 & _). fold e in H6. fold B in H7.
  assert (He : 0 <= e <= / 100000).
  { unfold e, exh. cbn [length]. rewrite INR_IZR_INZ. change (Z.of_nat 3) with 3%Z. assert (0 < / 2 ^ 52 <= / 1000000) by (split; [apply pow_pos_inv|apply Rinv_le_contravar; lra]).
    assert (0 < / 2 ^ 53 <= / 1000000) by (split; [apply pow_pos_inv|apply Rinv_le_contravar; lra]). lra. }
  assert (A2 : Rabs (-2) = 2) by (unfold Rabs; destruct (Rcase_abs (-2)); lra). assert (A3 : Rabs 2 = 2) by (apply Rabs_pos_eq; lra). assert (AH : Rabs (/ 2) = / 2) by (apply Rabs_pos_eq; lra).
  assert (HB : 0 <= B <= 11).
  { assert (F2 : frobR 4 (mcells 4 id64) = 2). { apply C214_hypotheses_met. }
    assert (P : 0 < / 2 ^ 1000 <= / 1024). { split; [apply pow_pos_inv|]. apply Rinv_le_contravar; [lra|]. replace 1024 with (2 ^ 10) by ring. apply Rle_pow; [lra|lia]. }
    unfold B, reachR, exh. cbn [map real_edit fold_left factor offset]. rewrite F2. cbn [val3 max3]. rewrite val_two, val_one, Z0, V2, A2, A3, Rabs_R0, Rabs_R1.
    rewrite (Rmax_left 2 2), (Rmax_left 2 2), (Rmax_right 1 2) by lra. lra. }
  assert (FP : 0 <= p <= 4).
  { split; [apply frob_nonneg|]. unfold p, Spec14.frobR. rewrite <- (sqrt_square 4) by lra. apply sqrt_le_1_alt.
    unfold mcells. cbn [rsum nth Nat.mul Nat.add exP]. rewrite ?Z0, ?V1, ?V2, ?val_one. lra. }
  assert (Hw : w = 6).
  { unfold w, screenW, homR, mvecR, hom1, vcells, exv, historyR, exh. cbn [rsum Nat.add Nat.ltb Nat.leb nth map real_edit fold_left fst snd val3]. rewrite ?val_two, ?val_one, ?val_half, ?Z0, ?V2.
    unfold mmulR at 1 2 3 4. cbn [rsum editedR moveR comp4 nth Nat.eqb Nat.ltb Nat.leb andb fst snd]. unfold mmulR, mcells, axis_rot; cbn -[val f64_one f64_two f64_zero b64_opp Rmult Rplus Ropp cos sin].
    rewrite ?V1, ?V2, ?val_one, ?Z0. field. }
  assert (PB : 0 <= p * B <= 4 * 11) by (split; [apply Rmult_le_pos; lra|apply Rmult_le_compat; lra]).
  repeat (split; [assumption|]). split; [reflexivity|]. split.
  { intros x Hx. assert (T : 2 <= 2 ^ 200) by (replace 2 with (2 ^ 1) at 1 by ring; apply Rle_pow; [lra|lia]). unfold exv in Hx.
    repeat (destruct Hx as [<-|Hx]; [split; [reflexivity|rewrite ?val_one, ?val_half, ?V2, ?Rabs_R1, ?AH, ?A2; lra]|]). destruct Hx. }
  repeat (split; [assumption|]). split. { apply Rle_trans with (2 ^ 6); [lra|]. apply Rle_pow; [lra|lia]. }
  rewrite Hw. split. { rewrite Rabs_pos_eq by lra. pose proof (inv_small 390). lra. }
  assert (K : 0 <= spread p B (vcells exv) 6 <= 33).
  { unfold spread, vcells, exv. cbn [rsum nth]. rewrite val_one, val_half, V2, Rabs_R1, AH, A2, (Rabs_pos_eq 6) by lra. lra. }
  assert (T : 0 <= 16 * e + 320 / 2 ^ 53 <= / 1000).
  { assert (0 < / 2 ^ 53 <= / 10000000) by (split; [apply pow_pos_inv|apply Rinv_le_contravar; lra]). unfold Rdiv. lra. }
  apply Rle_trans with (/ 1000 * 33); [apply Rmult_le_compat; lra|lra].
Qed.
