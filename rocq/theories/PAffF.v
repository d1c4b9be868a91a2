(** Properties C228, C230: the last row of a transformation, in double. *)
From Coq Require Import ZArith Reals Lra Psatz List.
From Flocq Require Import Core.Core IEEE754.BinarySingleNaN IEEE754.Binary IEEE754.Bits.
From Verif Require Import InstF MMatrix LBase LMatrix LMat4 LMat6 Spec Spec3 Spec4 Spec11 Spec13 Spec14 Spec17 LSum LEdit PFloat LFloat PFloat2 LErr PAabbF PMatrix3 PRayF PQrF PQrO PChain LRot PRotF PMoveF PEditF PHomF.
Import ListNotations.
Local Open Scope R_scope.
Local Open Scope list_scope.
Local Existing Instance F64Scalar.
Local Notation frobR := Spec14.frobR.
Local Notation rnd := (round radix2 (FLT_exp (-1074) 53) (Znearest (fun x => negb (Z.even x)))).
Local Notation bp := (bpow radix2).
Local Notation "a *' b" := (b64_mult mode_NE a b) (at level 40, left associativity).
Local Notation "a +' b" := (b64_plus mode_NE a b) (at level 50, left associativity).
Local Notation "a -' b" := (b64_minus mode_NE a b) (at level 50, left associativity).

(** The matrices multiplied with have (0, 0, 0, 1) as their last row. *)
Definition affine_edit (e : edit) : Prop :=
  match e with ETimes b | EPreTimes b => forall j, (j < 4)%nat -> mcells 4 b 3 j = idR 3 j | _ => True end.

(** ** Arithmetic with exact zeros and ones *)
Definition okv (r : R) (x : f64) : Prop := fin x /\ val x = r.
Lemma rnd0 : rnd 0 = 0. Proof. apply round_0. apply valid_rnd_N. Qed.
Lemma val_lt (x : f64) : Rabs (rnd (val x)) < bp 1024.
Proof. rewrite rnd_val. unfold val. apply abs_B2R_lt_emax. Qed.
Lemma mul0l x y : okv 0 x -> fin y -> okv 0 (x *' y).
Proof.
  intros (Fx & Ex) Fy. destruct (mult_fin x y Fx Fy) as (F & E).
  - rewrite Ex, Rmult_0_l, rnd0, Rabs_R0. apply bpow_gt_0.
  - split; [exact F|]. rewrite E, Ex, Rmult_0_l. apply rnd0.
Qed.
Lemma mul0r x y : fin x -> okv 0 y -> okv 0 (x *' y).
Proof.
  intros Fx (Fy & Ey). destruct (mult_fin x y Fx Fy) as (F & E).
  - rewrite Ey, Rmult_0_r, rnd0, Rabs_R0. apply bpow_gt_0.
  - split; [exact F|]. rewrite E, Ey, Rmult_0_r. apply rnd0.
Qed.
Lemma mul1 x y r : okv 1 x -> okv r y -> okv r (x *' y).
Proof.
  intros (Fx & Ex) (Fy & Ey). destruct (mult_fin x y Fx Fy) as (F & E).
  - rewrite Ex, Rmult_1_l. apply val_lt.
  - split; [exact F|]. rewrite E, Ex, Rmult_1_l, rnd_val. exact Ey.
Qed.
Lemma add0 x y r : okv 0 x -> okv r y -> okv r (x +' y).
Proof.
  intros (Fx & Ex) (Fy & Ey). destruct (plus_fin x y Fx Fy) as (F & E).
  - rewrite Ex, Rplus_0_l. apply val_lt.
  - split; [exact F|]. rewrite E, Ex, Rplus_0_l, rnd_val. exact Ey.
Qed.
Lemma sub0 x y : okv 0 x -> okv 0 y -> okv 0 (x -' y).
Proof.
  intros (Fx & Ex) (Fy & Ey). destruct (minus_fin x y Fx Fy) as (F & E).
  - rewrite Ex, Ey, Rminus_0_r, rnd0, Rabs_R0. apply bpow_gt_0.
  - split; [exact F|]. rewrite E, Ex, Ey, Rminus_0_r. apply rnd0.
Qed.
Lemma opp0 x : okv 0 x -> okv 0 (b64_opp x).
Proof. intros (Fx & Ex). destruct (opp_E x) as (VO & FO). split; [apply FO, Fx|rewrite VO, Ex; ring]. Qed.

(** ** One call *)
Definition affF (h : nat -> nat -> f64) : Prop := forall j, (j < 4)%nat -> val (h 3%nat j) = idR 3 j.
Lemma aff0 h j : finM h -> affF h -> (j < 3)%nat -> okv 0 (h 3%nat j).
Proof. intros F A Hj. split; [apply F; lia|]. rewrite A by lia. destruct j as [|[|[|j]]]; [reflexivity..|lia]. Qed.
Lemma aff1 h : finM h -> affF h -> okv 1 (h 3%nat 3%nat).
Proof. intros F A. split; [apply F; lia|]. rewrite A by lia. reflexivity. Qed.
Lemma aff_intro h : (forall j, (j < 3)%nat -> okv 0 (h 3%nat j)) -> okv 1 (h 3%nat 3%nat) -> affF h.
Proof. intros A B j Hj. destruct j as [|[|[|[|j]]]]; try lia; [apply (A 0%nat)|apply (A 1%nat)|apply (A 2%nat)|apply B]; lia. Qed.
Lemma aff_turn a (c s : f64) h : fin c -> fin s -> finM h -> affF h -> affF (turnF a c s h).
Proof.
  intros Fc Fs F A. pose proof (fun j => aff0 h j F A) as Z. pose proof (aff1 h F A) as O. apply aff_intro.
  - intros j Hj. unfold turnF.
    assert (Z1 : okv 0 (h 3%nat (ax1 a))) by (apply Z; destruct a; cbn; lia). assert (Z2 : okv 0 (h 3%nat (ax2 a))) by (apply Z; destruct a; cbn; lia).
    destruct (j =? ax1 a)%nat; [|destruct (j =? ax2 a)%nat; [|apply Z; exact Hj]].
    + destruct a; [apply add0|apply sub0|apply add0]; apply mul0l; assumption.
    + destruct a; apply add0; apply mul0l; try assumption; apply opp0; assumption.
  - unfold turnF. destruct a; exact O.
Qed.
Lemma ssum_last (a b : nat -> f64) r : (forall k, (k < 3)%nat -> okv 0 (a k *' b k)) -> okv r (a 3%nat *' b 3%nat) -> okv r (ssum 4 (fun k => smul (a k) (b k))).
Proof.
  intros Z O. cbn [ssum sadd smul szero F64Scalar]. assert (Z0 : okv 0 f64_zero) by (split; reflexivity).
  apply add0; [|exact O]. apply add0; [|apply Z; lia]. apply add0; [|apply Z; lia]. apply add0; [exact Z0|apply Z; lia].
Qed.
Lemma edit_affine (cfg : Cfg) (TT : Trig f64) (d : R) (GT : good_trig TT d) e m h : repM 4 4 m h -> finM h -> affF h -> ok_edit e -> affine_edit e ->
  exists r k, edit_one e m = Ok r /\ repM 4 4 r k /\ affF k.
Proof.
  intros Hm F A He Ae. pose proof (fun j => aff0 h j F A) as Z. pose proof (aff1 h F A) as O.
  destruct e as [[[p a] t]|s|s|s|b|b]; cbn [edit_one ok_edit affine_edit move_about snd] in *.
  - destruct (GT t He) as (Fs & Fc & _ & _). destruct p.
    + destruct (pre_rotate_about_F (cfg := cfg) (TT := TT) a m h t Hm) as (r & Er & Hr). exists r. eexists. split; [exact Er|]. split; [exact Hr|].
      intros j Hj. unfold turnG. destruct a; exact (A j Hj).
    + destruct (rotate_about_F (cfg := cfg) (TT := TT) a m h t Hm) as (r & Er & Hr). exists r. eexists. split; [exact Er|]. split; [exact Hr|].
      apply aff_turn; assumption.
  - destruct (scale_F m h s Hm) as (r & Er & Hr). exists r. eexists. split; [exact Er|]. split; [exact Hr|].
    apply aff_intro; [|exact O]. intros j Hj. unfold scaledF. destruct (Nat.ltb_spec j 3) as [L|L]; [|lia]. apply mul0l; [apply Z; exact Hj|]. apply arr3_fin; assumption.
  - destruct (scale_translation_F m h s Hm) as (r & Er & Hr). exists r. eexists. split; [exact Er|]. split; [exact Hr|].
    intros j Hj. unfold scaledTrF. change (3 <? 3)%nat with false. rewrite Bool.andb_false_r. exact (A j Hj).
  - destruct (set_translation_F m h s Hm) as (r & Er & Hr). exists r. eexists. split; [exact Er|]. split; [exact Hr|].
    intros j Hj. unfold setTrF. change (3 <? 3)%nat with false. rewrite Bool.andb_false_r. exact (A j Hj).
  - destruct He as (Lb & Fb). pose proof (repM_nth 4 4 b f64_zero Lb) as Hb. set (g := fun i j : nat => nth (j * 4 + i) b f64_zero) in *.
    assert (Fg : finM g) by (intros i j Hi Hj; apply Fb, nth_In; lia).
    destruct (mat_mul_spec 4 4 4 m b h g Hm Hb) as (r & Er & Hr). exists r. eexists. split; [exact Er|]. split; [exact Hr|].
    intros j Hj. apply (ssum_last (fun k => h 3%nat k) (fun k => g k j)).
    + intros k Hk. apply mul0l; [apply Z; exact Hk|apply Fg; lia].
    + apply mul1; [exact O|]. split; [apply Fg; lia|exact (Ae j Hj)].
  - destruct He as (Lb & Fb). pose proof (repM_nth 4 4 b f64_zero Lb) as Hb. set (g := fun i j : nat => nth (j * 4 + i) b f64_zero) in *.
    assert (Fg : finM g) by (intros i j Hi Hj; apply Fb, nth_In; lia). assert (Ag : affF g) by exact Ae.
    destruct (mat_mul_spec 4 4 4 b m g h Hb Hm) as (r & Er & Hr). exists r. eexists. split; [exact Er|]. split; [exact Hr|].
    intros j Hj. apply (ssum_last (fun k => g 3%nat k) (fun k => h k j)).
    + intros k Hk. apply mul0l; [apply aff0; assumption|apply F; lia].
    + apply mul1; [apply aff1; assumption|]. split; [apply F; lia|exact (A j Hj)].
Qed.
Lemma edit_all_app {cfg : Cfg} {TT : Trig f64} e : forall l m, edit_all m (l ++ [e]) = (y <- edit_all m l ;; edit_one e y).
Proof.
  induction l as [|a l IH]; intros m; cbn [app edit_all bind].
  - destruct (edit_one e m); reflexivity.
  - destruct (edit_one a m); cbn [bind]; [apply IH|reflexivity..].
Qed.

(** C228: a matrix whose last row is (0, 0, 0, 1) has exactly that last row after
    every history of transformation calls, however large the rounding errors in
    the other rows are. *)
Theorem C228_last_row_kept :
  forall (cfg : Cfg) (TT : Trig f64) (d : R) (m : list f64) (l : list edit),
  0 <= d <= / 100 -> good_trig TT d -> length m = 16%nat -> (forall x, In x m -> fin x) -> Forall ok_edit l ->
  2 * INR (length l) * (2 * d + 43 / 10 / 2 ^ 53) <= 1 -> reachR (map real_edit l) (frobR 4 (mcells 4 m) + / 2 ^ 1000) <= 2 ^ 1000 ->
  (forall j, (j < 4)%nat -> mcells 4 m 3 j = idR 3 j) -> Forall affine_edit l ->
  exists r, edit_all m l = Ok r /\ length r = 16%nat /\ (forall x, In x r -> fin x) /\ forall j, (j < 4)%nat -> mcells 4 r 3 j = idR 3 j.
Proof.
  intros cfg TT d m l Hd GT Lm Fm. pose proof (frob_nn (mcells 4 m)) as N0. assert (P0 : 0 < / 2 ^ 1000) by (apply Rinv_0_lt_compat, pow_lt; lra).
  induction l as [|e l IH] using rev_ind; intros HL HK HB A0 HA.
  - exists m. split; [reflexivity|]. split; [exact Lm|]. split; [exact Fm|exact A0].
  - destruct (C220_transformation_histories cfg TT d m (l ++ [e]) Hd GT Lm Fm HL HK HB) as (r & Er & Lr & Fr & _).
    apply Forall_app in HL. destruct HL as (HL & He). apply Forall_app in HA. destruct HA as (HA & Ae).
    pose proof (Forall_inv He) as He'. pose proof (Forall_inv Ae) as Ae'.
    destruct IH as (y & Ey & Ly & Fy & Ay); try assumption.
    + eapply Rle_trans; [|exact HK]. apply Rmult_le_compat_r. { assert (0 < / 2 ^ 53) by (apply Rinv_0_lt_compat, pow_lt; lra). lra. }
      apply Rmult_le_compat_l; [lra|]. apply le_INR. rewrite app_length. lia.
    + eapply Rle_trans; [|exact HB]. unfold reachR. rewrite map_app, fold_left_app. cbn [map fold_left]. fold (reachR (map real_edit l) (frobR 4 (mcells 4 m) + / 2 ^ 1000)).
      set (b := reachR _ _). assert (B0 : 0 <= b) by (eapply Rle_trans; [|apply reach_ge]; lra).
      pose proof (factor_ge1 (real_edit e)). pose proof (offset_nn (real_edit e)). assert (1 * b <= factor (real_edit e) * b) by (apply Rmult_le_compat_r; lra). lra.
    + pose proof (repM_nth 4 4 y f64_zero Ly) as Hy.
      destruct (edit_affine cfg TT d GT e y (fun i j => nth (j * 4 + i) y f64_zero)) as (r' & k & Er' & Hr & Ak); try assumption.
      { intros i j Hi Hj. apply Fy, nth_In. lia. }
      rewrite edit_all_app, Ey in Er. cbn [bind] in Er. rewrite Er' in Er. injection Er as <-.
      exists r'. split; [rewrite edit_all_app, Ey; exact Er'|]. split; [exact Lr|]. split; [exact Fr|].
      intros j Hj. rewrite (rep_mcells 4 r' k Hr 3 j) by lia. exact (Ak j Hj).
Qed.
Print Assumptions C228_last_row_kept.

Example C228_hypotheses_met :
  good_trig grid_trig (/ 2 ^ 52) /\ length id64 = 16%nat /\ (forall x, In x id64 -> fin x) /\ Forall ok_edit exl /\
  2 * INR (length exl) * (2 * / 2 ^ 52 + 43 / 10 / 2 ^ 53) <= 1 /\
  reachR (map real_edit exl) (frobR 4 (mcells 4 id64) + / 2 ^ 1000) <= 2 ^ 1000 /\
  (forall j, (j < 4)%nat -> mcells 4 id64 3 j = idR 3 j) /\ Forall affine_edit exl.
Proof.
  assert (A : forall j, (j < 4)%nat -> mcells 4 id64 3 j = idR 3 j).
  { intros j Hj. destruct j as [|[|[|[|j]]]]; try lia; unfold mcells; cbn -[val f64_one f64_zero]; rewrite ?val_one; reflexivity. }
  destruct C220_hypotheses_met as (H1 & H2 & H3 & H4 & H5 & H6).
  split; [exact H1|]. split; [exact H2|]. split; [exact H3|]. split; [exact H4|]. split; [exact H5|]. split; [exact H6|]. split; [exact A|].
  unfold exl. repeat apply Forall_cons; try apply Forall_nil; cbn [affine_edit]; try exact I; exact A.
Qed.

(** ** Points and affine matrices *)
Lemma add_like a b x y : fin (a +' b) -> okv (val a) x -> okv (val b) y -> okv (val (a +' b)) (x +' y).
Proof.
  intros F (Fx & Ex) (Fy & Ey). destruct (fin_plus _ _ F) as (_ & _ & E). destruct (plus_fin x y Fx Fy) as (F' & E').
  - rewrite Ex, Ey, <- E. unfold val. apply abs_B2R_lt_emax.
  - split; [exact F'|]. rewrite E', Ex, Ey. symmetry. exact E.
Qed.
Lemma mul_swap a b : fin (a *' b) -> okv (val (a *' b)) (b *' a).
Proof.
  intros F. destruct (fin_mult _ _ F) as (Fa & Fb & E). destruct (mult_fin b a Fb Fa) as (F' & E').
  - rewrite Rmult_comm, <- E. unfold val. apply abs_B2R_lt_emax.
  - split; [exact F'|]. rewrite E', Rmult_comm. symmetry. exact E.
Qed.
Lemma sum_swap (a b : nat -> f64) : forall n, fin (ssum n (fun c => smul (a c) (b c))) -> okv (val (ssum n (fun c => smul (a c) (b c)))) (ssum n (fun c => smul (b c) (a c))).
Proof.
  induction n as [|n IH]; [split; reflexivity|]. cbn [ssum sadd smul F64Scalar]. intros F. destruct (fin_plus _ _ F) as (F1 & F2 & _).
  apply add_like; [exact F|apply IH; exact F1|apply mul_swap; exact F2].
Qed.
Lemma sum_zeros (a b : nat -> f64) n : (forall c, (c < n)%nat -> okv 0 (smul (a c) (b c))) -> okv 0 (ssum n (fun c => smul (a c) (b c))).
Proof. induction n as [|n IH]; intros H; [split; reflexivity|]. cbn [ssum sadd F64Scalar]. apply add0; [apply IH; intros; apply H; lia|apply H; lia]. Qed.
Lemma div1 x y r : okv r x -> okv 1 y -> okv r (b64_div mode_NE x y).
Proof.
  intros (Fx & Ex) (Fy & Ey). assert (Q : val x / val y = val x) by (rewrite Ey; field). destruct (div_fin x y Fx) as (F & E).
  - rewrite Ey. lra.
  - rewrite Q. apply val_lt.
  - split; [exact F|]. rewrite E, Q, rnd_val. exact Ex.
Qed.
(** C230: if the last row of the matrix is (0, ..., 0, 1), transforming a point
    divides by nothing but 1: the result is exactly that of the plain product
    of the matrix with (v, 1). *)
Theorem C230_no_division :
  forall (cfg : Cfg) (n : nat) (m v : list f64),
  length m = ((n + 1) * (n + 1))%nat -> length v = n -> (forall x, In x m -> fin x) -> (forall x, In x v -> fin x) ->
  (forall j, (j <= n)%nat -> mcells (n + 1) m n j = idR n j) ->
  exists r s, mat_mul_hom (n + 1) (n + 1) n m v = Ok r /\ length r = n /\ mat_mul_vec (n + 1) (n + 1) m (v ++ [f64_one]) = Ok s /\
  forall i, (i < n)%nat -> fin (nth i s f64_zero) -> fin (nth i r f64_zero) /\ val (nth i r f64_zero) = val (nth i s f64_zero).
Proof.
  intros cfg n m v Lm Lv Fm Fv A. pose proof (repM_nth (n + 1) (n + 1) m f64_zero Lm) as Hm. set (f := fun i j : nat => nth (j * (n + 1) + i) m f64_zero) in *.
  pose proof (repV_nth n v f64_zero Lv) as Hv. set (g := fun i : nat => nth i v f64_zero) in *.
  assert (Lw : length (v ++ [f64_one]) = (n + 1)%nat) by (rewrite app_length, Lv; reflexivity).
  pose proof (repV_nth (n + 1) (v ++ [f64_one]) f64_zero Lw) as Hw. set (w := fun i : nat => nth i (v ++ [f64_one]) f64_zero) in *.
  destruct (hom_run n m v f g Hm Hv) as (r & Er & Lr & Hr). destruct (mat_mul_vec_spec (n + 1) (n + 1) m (v ++ [f64_one]) f w Hm Hw) as (s & Es & Ls & Hs).
  exists r, s. split; [exact Er|]. split; [exact Lr|]. split; [exact Es|]. intros i Hi F.
  rewrite (nth_error_nth s i f64_zero (Hs i ltac:(lia))) in *. rewrite (nth_error_nth r i f64_zero (Hr i Hi)).
  assert (Fg : forall c, (c < n)%nat -> fin (g c)) by (intros c Hc; apply Fv, nth_In; lia).
  assert (O : okv 1 (hrow n f g n)).
  { unfold hrow. apply add0.
    - apply (sum_zeros g (fun c => f n c)). intros c Hc. apply mul0r; [apply Fg, Hc|]. split; [apply Fm, nth_In; nia|].
      change (val (f n c)) with (mcells (n + 1) m n c). rewrite A by lia. unfold idR. destruct (Nat.eqb_spec n c); [lia|reflexivity].
    - split; [apply Fm, nth_In; nia|]. change (val (f n n)) with (mcells (n + 1) m n n). rewrite A by lia. unfold idR. rewrite Nat.eqb_refl. reflexivity. }
  apply div1; [|exact O]. rewrite Nat.add_1_r in *. cbn [ssum sadd F64Scalar] in *. unfold hrow.
  assert (E : ssum n (fun j => smul (f i j) (w j)) = ssum n (fun j => smul (f i j) (g j))).
  { apply LBase.ssum_ext. intros c Hc. f_equal. unfold w, g. apply app_nth1. lia. }
  rewrite E in *. assert (WN : w n = f64_one) by (unfold w; rewrite app_nth2 by lia; rewrite Lv, Nat.sub_diag; reflexivity). rewrite WN in *.
  destruct (fin_plus _ _ F) as (F1 & F2 & _). apply add_like; [exact F|apply sum_swap; exact F1|].
  cbn [smul F64Scalar] in *. destruct (mul_swap _ _ F2) as (F3 & E3). destruct (fin_mult _ _ F2) as (Fn & _ & _). split; [exact Fn|].
  rewrite <- E3. symmetry. apply (mul1 f64_one (f i n) (val (f i n))); [split; [reflexivity|exact val_one]|split; [exact Fn|reflexivity]].
Qed.
Print Assumptions C230_no_division.

Definition exaM : list f64 := let o := f64_zero in let e := f64_one in let t := f64_two in [t; o; o;  o; e; o;  e; t; e].
Example C230_hypotheses_met :
  length exaM = ((2 + 1) * (2 + 1))%nat /\ (forall x, In x exaM -> fin x) /\ (forall x, In x [f64_two; f64_one] -> fin x) /\
  (forall j, (j <= 2)%nat -> mcells (2 + 1) exaM 2 j = idR 2 j) /\
  exists s, (forall cfg : Cfg, mat_mul_vec (2 + 1) (2 + 1) exaM ([f64_two; f64_one] ++ [f64_one]) = Ok s) /\ fin (nth 0 s f64_zero) /\ fin (nth 1 s f64_zero).
Proof.
  split; [reflexivity|]. split. { intros x Hx. unfold exaM in Hx. cbn -[f64_one f64_zero f64_two] in Hx. repeat (destruct Hx as [<-|Hx]; [reflexivity|]). destruct Hx. }
  split. { intros x Hx. cbn -[f64_one f64_two] in Hx. repeat (destruct Hx as [<-|Hx]; [reflexivity|]). destruct Hx. }
  split. { intros j Hj. destruct j as [|[|[|j]]]; try lia; unfold mcells, exaM; cbn -[val f64_one f64_zero f64_two]; rewrite ?val_one; reflexivity. }
  eexists. split; [intros cfg; cbn -[b64_mult b64_plus f64_zero f64_one f64_two]; reflexivity|]. split; vm_compute; reflexivity.
Qed.
