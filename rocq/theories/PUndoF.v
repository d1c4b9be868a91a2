(** Property C226: undoing a history of transformation calls, in double. *)
From Coq Require Import ZArith Reals Lra Psatz List.
From Flocq Require Import Core.Core IEEE754.BinarySingleNaN IEEE754.Binary IEEE754.Bits.
From Verif Require Import InstF MMatrix LBase LMatrix LMat4 LMat6 Spec Spec3 Spec4 Spec11 Spec13 Spec14 Spec17 LSum LEdit LEye LUndo PFloat LFloat PFloat2 LErr PMatrix3 PRayF PQrF PQrO PChain LRot PRotF PMoveF PEditF PInvF.
Import ListNotations.
Local Open Scope R_scope.
Local Open Scope list_scope.
Local Existing Instance F64Scalar.
Local Notation frobR := Spec14.frobR.

(** C226: V is what a history of calls makes of m0, and Y the exact inverse of
    what the calls make exactly: if the determinant of V clears the tolerance,
    inverse() succeeds and every cell of its result is close to Y; D is the
    absolute determinant of V and P the sum of the absolute values of its terms. *)
Theorem C226_undo_history :
  forall (cfg : Cfg) (TT : Trig f64) (d : R) (m0 inv : list f64) (l : list edit) (tol : f64) (Y : nat -> nat -> R),
  0 <= d <= / 100 -> good_trig TT d -> length m0 = 16%nat -> (forall x, In x m0 -> fin x) -> Forall ok_edit l -> length inv = 16%nat -> fin tol ->
  let e := 2 * INR (length l) * (2 * d + 43 / 10 / 2 ^ 53) in
  let B := reachR (map real_edit l) (frobR 4 (mcells 4 m0) + / 2 ^ 1000) in
  e <= 1 -> B <= 2 ^ 99 ->
  (forall i j, (i < 4)%nat -> (j < 4)%nat -> mmulR 4 (historyR (map real_edit l) (mcells 4 m0)) Y i j = idR i j) ->
  e * B * frobR 4 Y <= / 2 ->
  exists V, edit_all m0 l = Ok V /\
  let A := mcells 4 V in
  let D := Rabs (detR 4 A) in
  let P := permR 4 (absM A) in
  (val tol + P / 2 ^ 49 + / 2 ^ 700 < D -> P <= 2 ^ 45 * D -> / 2 ^ 300 <= D ->
   exists x, mat_inverse 4 V inv tol = Ok (true, x) /\ length x = 16%nat /\
   forall i j, (i < 4)%nat -> (j < 4)%nat -> fin (nth (j * 4 + i) x f64_zero) /\
     Rabs (mcells 4 x i j - Y i j) <=
       2 * e * B * (frobR 4 Y * frobR 4 Y) + / 2 ^ 48 * (P / D) * (permR 3 (cutR (absM A) j i) / D) + / 2 ^ 500).
Proof.
  intros cfg TT d m0 inv l tol Y Hd HT L0 F0 HO LI FT e B He HB HY HC.
  assert (B1000 : B <= 2 ^ 1000) by (eapply Rle_trans; [exact HB|]; apply Rle_pow; [lra|lia]).
  destruct (C220_transformation_histories cfg TT d m0 l Hd HT L0 F0 HO He B1000) as (V & EV & LV & FV & HX & HV).
  fold B in HX, HV. fold e in HV. set (X := historyR (map real_edit l) (mcells 4 m0)) in *.
  assert (He0 : 0 <= e <= 1). { split; [|exact He]. unfold e. apply Rmult_le_pos; [pose proof (pos_INR (length l)); lra|]. assert (0 < / 2 ^ 53) by (apply Rinv_0_lt_compat, pow_lt; lra). lra. }
  exists V. split; [exact EV|]. intros A D P HS HP HD.
  pose proof (repM_nth 4 4 V f64_zero LV) as RV.
  assert (HF : forall i j, (i < 4)%nat -> (j < 4)%nat -> fin (nth (j * 4 + i) V f64_zero) /\ Rabs (val (nth (j * 4 + i) V f64_zero)) <= 2 ^ 100).
  { intros i j Hi Hj. split; [apply FV, nth_In; lia|]. pose proof (V_le (mcells 4 V) X B e HX HV He0) as VB. pose proof (entry_frob (mcells 4 V) i j Hi Hj) as EN. unfold mcells in EN at 1.
    replace (2 ^ 100) with (2 * 2 ^ 99) by ring. lra. }
  destruct (C147_inverse_double cfg 4 V inv _ tol ltac:(lia) RV LI HF FT) as (_ & C2 & C3). cbv zeta in C2, C3.
  destruct (C2 HS) as (x & Ex & Lx). destruct (C3 x Ex HP HD) as (h & W & Rh & HI & HE).
  exists x. split; [exact Ex|]. split; [exact Lx|]. intros i j Hi Hj.
  assert (NE : nth (j * 4 + i) x f64_zero = h i j). { apply nth_error_nth. apply Rh; assumption. }
  destruct (HE i j Hi Hj) as (Fh & Eh). rewrite NE. split; [exact Fh|]. unfold mcells. rewrite NE.
  pose proof (inv_near A X W Y (e * B) HY (fun a b Ha Hb => proj2 (HI a b Ha Hb)) HV HC i j Hi Hj) as N.
  pose proof (Rabs_triang (val (h i j) - W i j) (W i j - Y i j)) as T. replace (val (h i j) - W i j + (W i j - Y i j)) with (val (h i j) - Y i j) in T by ring.
  change (permR (4 - 1)) with (permR 3) in Eh. fold A D P in Eh. replace (2 * e * B * (frobR 4 Y * frobR 4 Y)) with (2 * (e * B) * (frobR 4 Y * frobR 4 Y)) by ring.
  change (fun i j => val (nth (j * 4 + i) V f64_zero)) with A in Eh. fold D P in Eh. lra.
Qed.
Print Assumptions C226_undo_history.

Definition exu : list edit := [EScale (f64_two, f64_one, f64_two); ESetTr (f64_one, f64_two, f64_zero)].
Definition exuV : list f64 := let o := f64_zero in let e := f64_one in let t := f64_two in
  [t; o; o; o;  o; e; o; o;  o; o; t; o;  e; t; o; e].
Definition exuY (i j : nat) : R := nth j (nth i [[/ 2; 0; 0; - / 2]; [0; 1; 0; -2]; [0; 0; / 2; 0]; [0; 0; 0; 1]] []) 0.
Lemma bits_inj : forall V W : list f64, map (B2FF 53 1024) V = map (B2FF 53 1024) W -> V = W.
Proof.
  induction V as [|a V IH]; intros [|b W] E; try discriminate E; [reflexivity|]. cbn [map] in E. pose proof (f_equal (hd (B2FF 53 1024 a)) E) as E1. pose proof (f_equal (@tl _) E) as E2. cbn [hd tl] in E1, E2.
  f_equal; [exact (B2FF_inj 53 1024 a b E1)|exact (IH W E2)].
Qed.
Example C226_hypotheses_met :
  let e := 2 * INR (length exu) * (2 * / 2 ^ 52 + 43 / 10 / 2 ^ 53) in
  let B := reachR (map real_edit exu) (frobR 4 (mcells 4 id64) + / 2 ^ 1000) in
  good_trig grid_trig (/ 2 ^ 52) /\ length id64 = 16%nat /\ (forall x, In x id64 -> fin x) /\ Forall ok_edit exu /\ fin f64_eps /\
  e <= 1 /\ B <= 2 ^ 99 /\
  (forall i j, (i < 4)%nat -> (j < 4)%nat -> mmulR 4 (historyR (map real_edit exu) (mcells 4 id64)) exuY i j = idR i j) /\
  e * B * frobR 4 exuY <= / 2 /\
  (forall (cfg : Cfg) (TT : Trig f64), edit_all id64 exu = Ok exuV) /\
  detR 4 (mcells 4 exuV) = 4 /\ permR 4 (absM (mcells 4 exuV)) = 4 /\
  val f64_eps + 4 / 2 ^ 49 + / 2 ^ 700 < 4 /\ 4 <= 2 ^ 45 * 4 /\ / 2 ^ 300 <= 4.
Proof.
  intros e B. assert (Z0 : val f64_zero = 0) by reflexivity.
  assert (FI : forall x, In x id64 -> fin x). { intros x Hx. cbn -[f64_one f64_zero] in Hx. repeat (destruct Hx as [<-|Hx]; [reflexivity|]). destruct Hx. }
  assert (A2 : Rabs 2 = 2) by (apply Rabs_pos_eq; lra).
  assert (He : 0 <= e <= / 100000).
  { unfold e, exu. cbn [length]. rewrite INR_IZR_INZ. change (Z.of_nat 2) with 2%Z. assert (0 < / 2 ^ 52 <= / 1000000) by (split; [apply Rinv_0_lt_compat; lra|apply Rinv_le_contravar; lra]).
    assert (0 < / 2 ^ 53 <= / 1000000) by (split; [apply Rinv_0_lt_compat; lra|apply Rinv_le_contravar; lra]). lra. }
  assert (HB : 0 <= B <= 8).
  { assert (F2 : frobR 4 (mcells 4 id64) = 2). { apply C214_hypotheses_met. }
    assert (P : 0 < / 2 ^ 1000 <= / 1024). { split; [apply Rinv_0_lt_compat, pow_lt; lra|]. apply Rinv_le_contravar; [lra|]. replace 1024 with (2 ^ 10) by ring. apply Rle_pow; [lra|lia]. }
    unfold B, reachR, exu. cbn [map real_edit fold_left factor offset]. rewrite F2. cbn [val3 max3]. rewrite val_two, val_one, Z0, A2, Rabs_R0, Rabs_R1.
    rewrite (Rmax_right 1 2), (Rmax_left 2 2), (Rmax_right 1 2) by lra. lra. }
  assert (FY : 0 <= frobR 4 exuY <= 3).
  { split; [apply frob_nonneg|]. unfold Spec14.frobR. rewrite <- (sqrt_square 3) by lra. apply sqrt_le_1_alt. unfold exuY. cbn [rsum nth]. lra. }
  split; [exact grid_trig_good|]. split; [reflexivity|]. split; [exact FI|].
  split. { unfold exu. repeat apply Forall_cons; try apply Forall_nil; cbn [ok_edit snd]; repeat split; reflexivity. }
  split; [reflexivity|]. split; [lra|]. split. { apply Rle_trans with (2 ^ 3); [lra|]. apply Rle_pow; [lra|lia]. }
  split.
  { intros i j Hi Hj. unfold historyR, exu. cbn [map real_edit fold_left fst snd val3]. rewrite ?val_two, ?val_one, ?Z0.
    destruct i as [|[|[|[|i]]]]; try lia; destruct j as [|[|[|[|j]]]]; try lia; unfold mmulR, exuY, mcells; cbn -[val f64_one f64_two f64_zero Rmult Rplus Ropp Rinv IZR];
    rewrite ?val_one, ?Z0; field. }
  split. { assert (0 <= e * B <= / 100000 * 8) by (split; [apply Rmult_le_pos; lra|apply Rmult_le_compat; lra]). apply Rle_trans with (/ 100000 * 8 * 3); [apply Rmult_le_compat; lra|lra]. }
  split.
  { intros cfg TT. assert (E : match edit_all id64 exu with Ok V => Some (map (B2FF 53 1024) V) | _ => None end = Some (map (B2FF 53 1024) exuV)) by (vm_compute; reflexivity).
    destruct (edit_all id64 exu) as [V| | |]; try discriminate E. f_equal. apply bits_inj. exact (f_equal (fun o => match o with Some x => x | None => [] end) E). }
  split. { cbn -[IZR Rplus Rmult Rminus Ropp nth pow exuV]. unfold minor0, cutR, mcells. cbn -[val f64_one f64_two f64_zero Rmult Rplus Ropp Rinv IZR Rminus]. rewrite ?val_one, ?val_two, ?Z0. ring. }
  split. { cbn -[IZR Rplus Rmult Rabs nth exuV]. unfold minor0, absM, cutR, mcells. cbn -[val f64_one f64_two f64_zero Rmult Rplus Ropp Rinv IZR Rminus Rabs]. rewrite ?val_one, ?val_two, ?Z0, ?A2, ?Rabs_R0, ?Rabs_R1. ring. }
  assert (EE : val f64_eps <= 1).
  { assert (E : B2FF 53 1024 f64_eps = F754_finite false 4503599627370496 (-104)) by reflexivity.
    unfold val. destruct f64_eps as [s|s|s p0 H0|s mm e0 H]; try discriminate E. injection E as -> -> ->. cbn. unfold F2R. cbn. lra. }
  assert (X1 : forall n, (1 <= n)%nat -> 0 < / 2 ^ n <= / 2). { intros n Hn. split; [apply Rinv_0_lt_compat, pow_lt; lra|]. apply Rinv_le_contravar; [lra|]. replace 2 with (2 ^ 1) at 1 by ring. apply Rle_pow; [lra|exact Hn]. }
  pose proof (X1 300%nat ltac:(lia)). pose proof (X1 700%nat ltac:(lia)). pose proof (X1 49%nat ltac:(lia)). assert (1 <= 2 ^ 45) by (apply pow_R1_Rle; lra).
  unfold Rdiv. repeat split; lra.
Qed.
