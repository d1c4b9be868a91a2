(** Properties C232, C234: points under affine and rigid histories, in double. *)
From Coq Require Import ZArith Reals Lra Psatz List.
From Flocq Require Import Core.Core IEEE754.BinarySingleNaN IEEE754.Binary IEEE754.Bits.
From Verif Require Import InstF MMatrix LBase LVector LVectorR LVecProps2 LMatrix LMat4 Spec Spec3 Spec4 Spec11 Spec12 Spec13 Spec14 Spec16 Spec17 Spec19 Spec20 LSum LWorld LEdit LEye LScreen LRigid PFloat LFloat PFloat2 LErr PMatrix3 PRayF PQrF PQrO PChain LRot PRotF PMoveF PEditF PWorldF PHomF PEyeF PScreenF PAffF.
Import ListNotations.
Local Open Scope R_scope.
Local Open Scope list_scope.
Local Existing Instance F64Scalar.
Local Notation bp := (bpow radix2).
Local Notation frobR := Spec14.frobR.

(** C232: a history of calls on a matrix with last row (0, 0, 0, 1), with
    arguments that keep that row, moves every point to where the exact matrix
    puts it, up to an error proportional to the sizes of the matrix and the point. *)
Theorem C232_moved_points :
  forall (cfg : Cfg) (TT : Trig f64) (d : R) (m0 : list f64) (l : list edit),
  0 <= d <= / 100 -> good_trig TT d -> length m0 = 16%nat -> (forall x, In x m0 -> fin x) -> Forall ok_edit l ->
  (forall j, (j < 4)%nat -> mcells 4 m0 3 j = idR 3 j) -> Forall affine_edit l ->
  let e := 2 * INR (length l) * (2 * d + 43 / 10 / 2 ^ 53) in
  let B := reachR (map real_edit l) (frobR 4 (mcells 4 m0) + / 2 ^ 1000) in
  let X := historyR (map real_edit l) (mcells 4 m0) in
  e <= 1 -> B <= 2 ^ 199 ->
  exists V, edit_all m0 l = Ok V /\
  forall v, length v = 3%nat -> (forall x, In x v -> fin x /\ Rabs (val x) <= 2 ^ 200) ->
  exists r, mat_mul_hom 4 4 3 V v = Ok r /\ length r = 3%nat /\ (forall x, In x r -> fin x) /\
  forall i, (i < 3)%nat -> Rabs (vcells r i - homR 3 X (vcells v) i) <= (e + 40 / 2 ^ 53) * B * sizeR (vcells v).
Proof.
  intros cfg TT d m0 l Hd HT L0 F0 HO A0 HA e B X He HB.
  assert (B1000 : B <= 2 ^ 1000) by (eapply Rle_trans; [exact HB|]; apply Rle_pow; [lra|lia]).
  destruct (C220_transformation_histories cfg TT d m0 l Hd HT L0 F0 HO He B1000) as (V & EV & LV & FV & HX & HV).
  destruct (C228_last_row_kept cfg TT d m0 l Hd HT L0 F0 HO He B1000 A0 HA) as (V' & EV' & _ & _ & AV). rewrite EV in EV'. injection EV' as <-.
  fold B in HX, HV. fold e in HV. fold X in HX, HV. pose proof (inv_small 53) as I53. pose proof (inv_small 400) as I400. pose proof eta_small as ES.
  assert (He0 : 0 <= e <= 1). { split; [|exact He]. unfold e. apply Rmult_le_pos; [pose proof (pos_INR (length l)); lra|]. lra. }
  assert (HU : 0 < uro <= / 100000) by (rewrite uro_val; lra). change (/ 2 ^ 53) with uro in *.
  assert (B1 : 1 <= B).
  { pose proof (entry_frob (mcells 4 m0) 3 3 ltac:(lia) ltac:(lia)) as EN. rewrite (A0 3%nat) in EN by lia. unfold idR in EN. cbn [Nat.eqb] in EN. rewrite Rabs_R1 in EN.
    pose proof (inv_small 1000). eapply Rle_trans; [|apply reach_ge]; lra. }
  exists V. split; [exact EV|]. intros v Lv Fv.
  pose proof (V_le (mcells 4 V) X B e HX HV He0) as VB.
  assert (VC : forall i j, (i < 4)%nat -> (j < 4)%nat -> Rabs (mcells 4 V i j) <= 2 * B) by (intros i j Hi Hj; eapply Rle_trans; [apply (entry_frob (mcells 4 V) i j Hi Hj)|exact VB]).
  assert (RM : forall x, In x V \/ In x v -> fin x /\ Rabs (val x) <= 2 ^ 200).
  { intros x [Hx|Hx]; [|exact (Fv x Hx)]. split; [exact (FV x Hx)|]. destruct (In_nth V x f64_zero Hx) as (n & Hn & <-). rewrite LV in Hn.
    pose proof (VC (n mod 4)%nat (n / 4)%nat (Nat.mod_upper_bound n 4 ltac:(lia)) ltac:(apply Nat.div_lt_upper_bound; lia)) as EN.
    unfold mcells in EN. replace (n / 4 * 4 + n mod 4)%nat with n in EN by (pose proof (Nat.div_mod n 4 ltac:(lia)); lia). replace (2 ^ 200) with (2 * 2 ^ 199) by ring. lra. }
  set (vc := vcells v) in *. set (N1 := sizeR vc). assert (HN : 1 <= N1) by apply rsum1_pos.
  set (H := 2 * B * N1). assert (H2 : 2 <= H). { unfold H. assert (1 * 1 <= B * N1) by (apply Rmult_le_compat; lra). lra. }
  assert (W1 : homR 3 (mcells 4 V) vc 3 = 1).
  { unfold homR, mvecR, hom1. cbn [rsum Nat.add Nat.ltb Nat.leb]. rewrite !AV by lia. unfold idR. cbn [Nat.eqb]. ring. }
  assert (HEB : forall i, homErr 3 (mcells 4 V) vc i <= 9 / 2 * uro * homR 3 (absM (mcells 4 V)) (fun j => Rabs (vc j)) i + 4 * eta /\ 0 <= homErr 3 (mcells 4 V) vc i).
  { intros i. unfold homErr. change (3 + 1)%nat with 4%nat. change (/ 2 ^ 53) with uro.
    assert (HP : 0 <= homR 3 (absM (mcells 4 V)) (fun j => Rabs (vc j)) i).
    { unfold homR, mvecR, hom1, absM. cbn [rsum Nat.add Nat.ltb Nat.leb].
      repeat apply Rplus_le_le_0_compat; try lra; apply Rmult_le_pos; try apply Rabs_pos; lra. }
    set (hh := homR 3 (absM (mcells 4 V)) (fun j => Rabs (vc j)) i) in *.
    assert (Q : 1 <= (1 + uro) ^ 4 <= 1 + 9 / 2 * uro /\ (1 + uro) ^ 4 <= 9 / 8) by (rewrite uro_val; lra). destruct Q as ((Q1 & Q2) & Q3).
    rewrite INR_IZR_INZ. change (Z.of_nat 3) with 3%Z. unfold Rdiv at 1 3. change (/ 2 ^ 1075) with eta.
    assert (0 <= (1 + uro) ^ 4 * eta <= 9 / 8 * eta) by (split; [apply Rmult_le_pos; lra|apply Rmult_le_compat_r; lra]).
    assert (0 <= ((1 + uro) ^ 4 - 1) * hh <= 9 / 2 * uro * hh) by (split; [apply Rmult_le_pos; lra|apply Rmult_le_compat_r; lra]).
    rewrite (Rmult_assoc 3). split; lra. }
  assert (HAB : forall i, (i < 4)%nat -> homR 3 (absM (mcells 4 V)) (fun j => Rabs (vc j)) i <= H).
  { intros i Hi. eapply Rle_trans; [apply Rle_abs|]. eapply Rle_trans; [apply (hom_row _ _ i (2 * B)); intros j Hj; unfold absM; rewrite Rabs_Rabsolu; apply VC; assumption|].
    unfold H, N1, sizeR. apply Req_le. f_equal. f_equal. apply rsum_ext. intros k Hk. apply Rabs_Rabsolu. }
  assert (HA3 : homR 3 (absM (mcells 4 V)) (fun j => Rabs (vc j)) 3 = 1).
  { unfold homR, mvecR, hom1, absM. cbn [rsum Nat.add Nat.ltb Nat.leb]. rewrite !AV by lia. unfold idR. cbn [Nat.eqb]. rewrite Rabs_R0, Rabs_R1. ring. }
  assert (TU : eta <= uro * / 1000).
  { unfold eta, uro. rewrite (pow_step 53 1022 : / 2 ^ 1075 = / 2 ^ 53 * / 2 ^ 1022). apply Rmult_le_compat_l; [apply Rlt_le; apply (inv_small 53)|].
    apply Rinv_le_contravar; [lra|]. apply Rle_trans with (2 ^ 10); [lra|]. apply Rle_pow; [lra|lia]. }
  pose proof (HEB 3%nat) as E3. rewrite HA3, Rmult_1_r in E3.
  destruct (C151_homogeneous_double cfg 3 V v) as (r & Er & Lr & Fr & Hr).
  - exact LV.
  - exact Lv.
  - lia.
  - exact RM.
  - fold vc. change (3 + 1)%nat with 4%nat. rewrite W1, Rabs_R1. lra.
  - fold vc. change (3 + 1)%nat with 4%nat. rewrite W1, Rabs_R1. lra.
  - cbv zeta in Hr. change (3 + 1)%nat with 4%nat in Hr, Er. fold vc in Hr.
    exists r. repeat (split; [assumption|]). intros i Hi. pose proof (Hr i Hi) as HI. change (/ 2 ^ 1075) with eta in HI. change (/ 2 ^ 53) with uro in HI. rewrite W1 in HI.
    pose proof (HEB i) as EI. pose proof (HAB i ltac:(lia)) as AI.
    assert (EI2 : 9 / 2 * uro * homR 3 (absM (mcells 4 V)) (fun j => Rabs (vc j)) i <= 9 / 2 * uro * H) by (apply Rmult_le_compat_l; lra).
    assert (HI2 : Rabs (homR 3 (mcells 4 V) vc i) <= H) by (apply (hom_row _ _ i (2 * B)); intros j Hj; apply VC; lia).
    pose proof (hom_one uro eta H (homR 3 (mcells 4 V) vc i) (homErr 3 (mcells 4 V) vc i) (homErr 3 (mcells 4 V) vc 3) (vcells r i) HU ltac:(lra) TU H2 HI2 ltac:(lra) ltac:(lra) HI) as R1.
    assert (R2 : Rabs (homR 3 (mcells 4 V) vc i - homR 3 X vc i) <= e * B * N1).
    { rewrite hom_sub. apply (hom_row _ _ i (e * B)). intros j Hj. eapply Rle_trans; [apply (entry_frob (fun i j => mcells 4 V i j - X i j)); lia|exact HV]. }
    pose proof (Rabs_triang (vcells r i - homR 3 (mcells 4 V) vc i) (homR 3 (mcells 4 V) vc i - homR 3 X vc i)) as T.
    replace (vcells r i - homR 3 (mcells 4 V) vc i + (homR 3 (mcells 4 V) vc i - homR 3 X vc i)) with (vcells r i - homR 3 X vc i) in T by ring.
    change (40 / 2 ^ 53) with (40 * uro). replace ((e + 40 * uro) * B * N1) with (e * B * N1 + 20 * (uro * H)) by (unfold H; ring). lra.
Qed.
Print Assumptions C232_moved_points.

(** C234: rotations, translations and scale_translation keep the distances of points: for any two
    points the computed images are as far apart as the points, up to an error
    proportional to the sizes of the matrix and the points. *)
Theorem C234_distances_kept :
  forall (cfg : Cfg) (TT : Trig f64) (d : R) (m0 : list f64) (l : list edit),
  0 <= d <= / 100 -> good_trig TT d -> length m0 = 16%nat -> (forall x, In x m0 -> fin x) -> Forall ok_edit l ->
  (forall j, (j < 4)%nat -> mcells 4 m0 3 j = idR 3 j) -> isoR (mcells 4 m0) -> Forall rigid_call (map real_edit l) ->
  let e := 2 * INR (length l) * (2 * d + 43 / 10 / 2 ^ 53) in
  let B := reachR (map real_edit l) (frobR 4 (mcells 4 m0) + / 2 ^ 1000) in
  e <= 1 -> B <= 2 ^ 199 ->
  exists V, edit_all m0 l = Ok V /\
  forall v w, length v = 3%nat -> length w = 3%nat -> (forall x, In x v \/ In x w -> fin x /\ Rabs (val x) <= 2 ^ 200) ->
  exists r s, mat_mul_hom 4 4 3 V v = Ok r /\ mat_mul_hom 4 4 3 V w = Ok s /\ length r = 3%nat /\ length s = 3%nat /\
  Rabs (gapR (vcells r) (vcells s) - gapR (vcells v) (vcells w)) <= 2 * ((e + 40 / 2 ^ 53) * B * (sizeR (vcells v) + sizeR (vcells w))).
Proof.
  intros cfg TT d m0 l Hd HT L0 F0 HO A0 HI HR e B He HB.
  assert (HA : Forall affine_edit l).
  { apply Forall_forall. intros x Hx. pose proof (proj1 (Forall_forall _ _) HR (real_edit x) (in_map real_edit l x Hx)) as Q. destruct x; cbn in *; try exact I; contradiction. }
  destruct (C232_moved_points cfg TT d m0 l Hd HT L0 F0 HO A0 HA He HB) as (V & EV & HV). exists V. split; [exact EV|]. intros v w Lv Lw F.
  destruct (HV v Lv (fun x Hx => F x (or_introl Hx))) as (r & Er & Lr & _ & Hr). destruct (HV w Lw (fun x Hx => F x (or_intror Hx))) as (s & Es & Ls & _ & Hs).
  exists r, s. repeat (split; [assumption|]). fold e B in Hr, Hs.
  set (X := historyR (map real_edit l) (mcells 4 m0)) in *. rewrite <- (iso_dist X (vcells v) (vcells w)) by (apply history_iso; assumption).
  set (q := (e + 40 / 2 ^ 53) * B) in *.
  assert (Q : 0 <= q * sizeR (vcells v) /\ 0 <= q * sizeR (vcells w)).
  { split; [eapply Rle_trans; [apply Rabs_pos|apply (Hr 0%nat); lia]|eapply Rle_trans; [apply Rabs_pos|apply (Hs 0%nat); lia]]. }
  rewrite Rmult_plus_distr_l. apply dist_err; [apply Q|apply Q|exact Hr|exact Hs].
Qed.
Print Assumptions C234_distances_kept.

Definition exr : list edit := [EMove (Post, AX, f64_one); ESetTr (f64_one, f64_two, f64_zero); EMove (Pre, AZ, f64_two); EScaleTr (f64_two, f64_one, f64_two)].
Example C234_hypotheses_met :
  good_trig grid_trig (/ 2 ^ 52) /\ length id64 = 16%nat /\ (forall x, In x id64 -> fin x) /\ Forall ok_edit exr /\
  (forall j, (j < 4)%nat -> mcells 4 id64 3 j = idR 3 j) /\ isoR (mcells 4 id64) /\ Forall rigid_call (map real_edit exr) /\ Forall affine_edit exr /\
  2 * INR (length exr) * (2 * / 2 ^ 52 + 43 / 10 / 2 ^ 53) <= 1 /\
  reachR (map real_edit exr) (frobR 4 (mcells 4 id64) + / 2 ^ 1000) <= 2 ^ 199.
Proof.
  destruct C228_hypotheses_met as (H1 & H2 & H3 & _ & _ & _ & H7 & _).
  split; [exact H1|]. split; [exact H2|]. split; [exact H3|].
  split. { unfold exr. repeat apply Forall_cons; try apply Forall_nil; cbn [ok_edit snd]; first [reflexivity|repeat split; reflexivity]. }
  split; [exact H7|].
  split. { intros u. apply lenR_ext. intros i Hi. unfold linR. destruct i as [|[|[|i]]]; try lia; cbn [rsum]; unfold mcells; cbn -[val f64_one f64_zero Rmult Rplus IZR]; rewrite ?val_one; change (val f64_zero) with 0; ring. }
  split. { unfold exr. repeat apply Forall_cons; try apply Forall_nil; exact I. }
  split. { unfold exr. repeat apply Forall_cons; try apply Forall_nil; exact I. }
  split. { unfold exr. cbn [length]. rewrite INR_IZR_INZ. change (Z.of_nat 4) with 4%Z. assert (/ 2 ^ 52 <= / 1000) by (apply Rinv_le_contravar; lra). assert (/ 2 ^ 53 <= / 1000) by (apply Rinv_le_contravar; lra). lra. }
  assert (F2 : frobR 4 (mcells 4 id64) = 2). { apply C214_hypotheses_met. }
  assert (Z : val f64_zero = 0) by reflexivity. assert (A2 : Rabs 2 = 2) by (apply Rabs_pos_eq; lra).
  unfold reachR, exr. cbn [map real_edit fold_left factor offset]. rewrite F2. cbn [val3 max3]. rewrite val_two, val_one, Z, A2, Rabs_R1, Rabs_R0.
  rewrite (Rmax_right 1 2), (Rmax_left 2 2), (Rmax_right 1 2) by lra.
  pose proof (inv_small 1000). assert (B : 16 <= 2 ^ 199) by (replace 16 with (2 ^ 4) by lra; apply Rle_pow; [lra|lia]).
  set (t := / 2 ^ 1000) in *. lra.
Qed.
Example C232_hypotheses_met :
  good_trig grid_trig (/ 2 ^ 52) /\ length id64 = 16%nat /\ (forall x, In x id64 -> fin x) /\ Forall ok_edit exr /\
  (forall j, (j < 4)%nat -> mcells 4 id64 3 j = idR 3 j) /\ Forall affine_edit exr /\
  2 * INR (length exr) * (2 * / 2 ^ 52 + 43 / 10 / 2 ^ 53) <= 1 /\
  reachR (map real_edit exr) (frobR 4 (mcells 4 id64) + / 2 ^ 1000) <= 2 ^ 199 /\
  (forall x, In x [f64_two; f64_one; f64_zero] -> fin x /\ Rabs (val x) <= 2 ^ 200).
Proof.
  destruct C234_hypotheses_met as (H1 & H2 & H3 & H4 & H5 & _ & _ & H8 & H9 & H10).
  repeat (split; [assumption|]). assert (1 <= 2 ^ 199) by (apply pow_R1_Rle; lra). replace (2 ^ 200) with (2 * 2 ^ 199) by ring.
  intros x Hx. cbn -[f64_one f64_two f64_zero] in Hx.
  destruct Hx as [<-|[<-|[<-|[]]]]; (split; [reflexivity|]); rewrite ?val_two, ?val_one; [rewrite Rabs_pos_eq by lra; lra|rewrite Rabs_R1; lra|change (val f64_zero) with 0; rewrite Rabs_R0; lra].
Qed.
