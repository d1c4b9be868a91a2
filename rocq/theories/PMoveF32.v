(** Property C215: histories of rotations from both sides, in float. *)
From Coq Require Import ZArith Reals Lra Psatz List.
From Flocq Require Import Core.Core IEEE754.BinarySingleNaN IEEE754.Binary IEEE754.Bits.
From Verif Require Import InstF32 MMatrix LMatrix LMat4 LSum Spec Spec3 Spec13 Spec14 PF32 LF32 PF32b LExprF PMatrix3 PRayF32 PQrF32 PQrO32 PChainF32 LRot PRotF32.
Import ListNotations.
Local Open Scope R_scope.
Local Open Scope list_scope.
Local Existing Instance F32Scalar.
Local Notation "a *' b" := (b32_mult mode_NE a b) (at level 40, left associativity).
Local Notation "a +' b" := (b32_plus mode_NE a b) (at level 50, left associativity).
Local Notation "a -' b" := (b32_minus mode_NE a b) (at level 50, left associativity).

(** The caller's program. *)
Definition pre_rotate_about {cfg : Cfg} {TT : Trig f32} (a : axis) (m : list f32) (t : f32) : res (list f32) :=
  match a with AX => mat_pre_rotate_x m t | AY => mat_pre_rotate_y m t | AZ => mat_pre_rotate_z m t end.
Definition move_about {cfg : Cfg} {TT : Trig f32} (x : side * axis * f32) (m : list f32) : res (list f32) :=
  let '(p, a, t) := x in match p with Pre => pre_rotate_about a m t | Post => rotate_about a m t end.
Fixpoint move_all {cfg : Cfg} {TT : Trig f32} (m : list f32) (l : list (side * axis * f32)) : res (list f32) :=
  match l with
  | [] => Ok m
  | x :: l' => y <- move_about x m ;; move_all y l'
  end.
Definition real_moves (l : list (side * axis * f32)) : list (side * axis * R) := map (fun x => (fst x, val (snd x))) l.

(** ** One pre_rotate *)
Definition turnG (a : axis) (c s : f32) (h : nat -> nat -> f32) (i j : nat) : f32 :=
  let x := h i (ax1 a) in let y := h i (ax2 a) in
  if (j =? ax1 a)%nat then (match a with AY => x *' c -' y *' s | _ => x *' c +' y *' s end)
  else if (j =? ax2 a)%nat then (match a with AY => x *' s +' y *' c | _ => x *' b32_opp s +' y *' c end)
  else h i j.
Lemma pre_rotate_about_F {cfg : Cfg} {TT : Trig f32} a m h t : repM 4 4 m h ->
  returns (pre_rotate_about a m t) (fun r => repM 4 4 r (fun i j => turnG a (scos t) (ssin t) (fun p q => h q p) j i)).
Proof.
  intros Hm. destruct a; cbn [pre_rotate_about];
  (lit Hm; cbn -[b32_mult b32_plus b32_minus b32_opp]; apply returns_ok; apply repM_44'; cbn -[b32_mult b32_plus b32_minus b32_opp]; reflexivity).
Qed.

Section Step.
Context (d : R) (Hd : 0 <= d <= / 100) (c s : f32) (t : R) (Hc : Rabs (val c - cos t) <= d) (Hs : Rabs (val s - sin t) <= d).
Local Notation kp := (d + 21 / 10 * uro).
Lemma pair4G x y : fin (x *' b32_opp s +' y *' c) -> fin x /\ fin y /\
  Rabs (val (x *' b32_opp s +' y *' c) - (- val x * sin t + val y * cos t)) <= kp * (Rabs (val x) + Rabs (val y)) + 21 / 10 * eta.
Proof.
  intros H. destruct (opp_E s) as (VO & FO). destruct (plus_E _ _ H) as (F1 & F2 & E). destruct (mult_E _ _ F1) as (Fx & _ & E1). destruct (mult_E _ _ F2) as (Fy & _ & E2).
  split; [exact Fx|]. split; [exact Fy|].
  replace (- val x * sin t) with (val x * - sin t) by ring.
  refine (pair_real uro eta d _ _ _ _ _ _ _ _ _ uro_small eta_nn Hd _ (cos1 t) _ Hc E1 E2 E).
  - rewrite Rabs_Ropp. apply sin1.
  - rewrite VO. replace (- val s - - sin t) with (- (val s - sin t)) by ring. rewrite Rabs_Ropp. exact Hs.
Qed.
Lemma row_stepG a h i : (forall j, (j < 4)%nat -> fin (turnG a c s h i j)) ->
  (forall j, (j < 4)%nat -> fin (h i j)) /\
  lenR 4 (fun j => val (turnG a c s h i j) - rowR (fun p => val (h i p)) (axis_rot a t) j) <= 2 * kp * lenR 4 (fun p => val (h i p)) + 3 * eta.
Proof.
  intros F.
  assert (KP : 0 <= kp) by (pose proof uro_small; lra).
  assert (A : ((forall j, (j < 4)%nat -> fin (h i j)) /\
    Rabs (val (turnG a c s h i (ax1 a)) - rowR (fun p => val (h i p)) (axis_rot a t) (ax1 a)) <= kp * (Rabs (val (h i (ax1 a))) + Rabs (val (h i (ax2 a)))) + 21 / 10 * eta /\
    Rabs (val (turnG a c s h i (ax2 a)) - rowR (fun p => val (h i p)) (axis_rot a t) (ax2 a)) <= kp * (Rabs (val (h i (ax1 a))) + Rabs (val (h i (ax2 a)))) + 21 / 10 * eta) /\
    (forall j, (j < 4)%nat -> j <> ax1 a -> j <> ax2 a -> val (turnG a c s h i j) - rowR (fun p => val (h i p)) (axis_rot a t) j = 0)).
  { split.
    - destruct a; cbn [ax1 ax2] in *.
      + destruct (pair1 d Hd c s t Hc Hs _ _ (F 1%nat ltac:(lia))) as (F1 & F2 & E1). destruct (pair4G _ _ (F 2%nat ltac:(lia))) as (_ & _ & E2).
        split; [intros j Hj; cell4 j Hj; [exact (F 0%nat ltac:(lia))|exact F1|exact F2|exact (F 3%nat ltac:(lia))]|].
        unfold rowR; cbn -[b32_mult b32_plus b32_minus b32_opp IZR Rplus Rminus Rmult Ropp Rdiv sin cos uro eta]. split; [eapply Rle_trans; [|exact E1]|eapply Rle_trans; [|exact E2]]; right; f_equal; f_equal; cbn [ax1 ax2]; ring.
      + destruct (pair2 d Hd c s t Hc Hs _ _ (F 0%nat ltac:(lia))) as (F1 & F2 & E1). destruct (pair3 d Hd c s t Hc Hs _ _ (F 2%nat ltac:(lia))) as (_ & _ & E2).
        split; [intros j Hj; cell4 j Hj; [exact F1|exact (F 1%nat ltac:(lia))|exact F2|exact (F 3%nat ltac:(lia))]|].
        unfold rowR; cbn -[b32_mult b32_plus b32_minus b32_opp IZR Rplus Rminus Rmult Ropp Rdiv sin cos uro eta]. split; [eapply Rle_trans; [|exact E1]|eapply Rle_trans; [|exact E2]]; right; f_equal; f_equal; cbn [ax1 ax2]; ring.
      + destruct (pair1 d Hd c s t Hc Hs _ _ (F 0%nat ltac:(lia))) as (F1 & F2 & E1). destruct (pair4G _ _ (F 1%nat ltac:(lia))) as (_ & _ & E2).
        split; [intros j Hj; cell4 j Hj; [exact F1|exact F2|exact (F 2%nat ltac:(lia))|exact (F 3%nat ltac:(lia))]|].
        unfold rowR; cbn -[b32_mult b32_plus b32_minus b32_opp IZR Rplus Rminus Rmult Ropp Rdiv sin cos uro eta]. split; [eapply Rle_trans; [|exact E1]|eapply Rle_trans; [|exact E2]]; right; f_equal; f_equal; cbn [ax1 ax2]; ring.
    - intros j Hj N1 N2. destruct a; cell4 j Hj; try (exfalso; cbn in N1, N2; lia);
        unfold rowR; cbn -[b32_mult b32_plus b32_minus b32_opp IZR Rplus Rminus Rmult Ropp Rdiv sin cos uro eta]; ring. }
  destruct A as ((A0 & A1 & A2) & A3). split; [exact A0|].
  apply (row_two kp eta (fun p => val (h i p)) _ (ax1 a) (ax2 a) KP eta_nn).
  - destruct a; cbn; lia.
  - exact A3.
  - exact A1.
  - exact A2.
Qed.
End Step.
Lemma turnG_fin a (c s : f32) h i : okf32 1 c -> okf32 1 s -> (forall j, (j < 4)%nat -> okf32 120 (h i j)) -> forall j, (j < 4)%nat -> fin (turnG a c s h i j).
Proof.
  intros Hc Hs Hh j Hj.
  assert (X : okf32 120 (h i (ax1 a))) by (apply Hh; destruct a; cbn; lia).
  assert (Y : okf32 120 (h i (ax2 a))) by (apply Hh; destruct a; cbn; lia).
  destruct (okf32_opp 1 _ Hs) as (S' & _).
  assert (M : forall p q, okf32 120 p -> okf32 1 q -> okf32 121 (p *' q)) by (intros p q Hp Hq; apply (okf32_mult 120 1 p q Hp Hq); lia).
  assert (P : forall p q, okf32 121 p -> okf32 121 q -> fin (p +' q)) by (intros p q Hp Hq; apply (okf32_plus 121 p q Hp Hq); lia).
  assert (Q : forall p q, okf32 121 p -> okf32 121 q -> fin (p -' q)) by (intros p q Hp Hq; apply (okf32_minus 121 p q Hp Hq); lia).
  unfold turnG. destruct (j =? ax1 a)%nat; [destruct a; first [apply P|apply Q]; apply M; assumption|].
  destruct (j =? ax2 a)%nat; [destruct a; apply P; apply M; assumption|]. apply Hh. exact Hj.
Qed.

(** ** The Frobenius norm *)
Lemma frob_rows A : frobR 4 A = lenR 4 (fun i => lenR 4 (A i)).
Proof. unfold frobR. unfold lenR at 1. f_equal. unfold dotR at 1. apply rsum_ext. intros i Hi. rewrite lenR_sq. reflexivity. Qed.
Lemma frob_ext A B : (forall i j, (i < 4)%nat -> (j < 4)%nat -> A i j = B i j) -> frobR 4 A = frobR 4 B.
Proof. intros H. unfold frobR. f_equal. apply rsum_ext. intros i Hi. apply rsum_ext. intros j Hj. rewrite (H i j Hi Hj). reflexivity. Qed.
Lemma frob_tr A : frobR 4 (fun i j => A j i) = frobR 4 A.
Proof. unfold frobR. f_equal. apply rsum_swap. Qed.
Lemma frob_nn A : 0 <= frobR 4 A. Proof. apply sqrt_pos. Qed.
Lemma frob_triangle A B : frobR 4 (fun i j => A i j + B i j) <= frobR 4 A + frobR 4 B.
Proof.
  rewrite !frob_rows. eapply Rle_trans; [|apply lenR_triangle]. apply lenR_le. intros i Hi.
  rewrite Rabs_pos_eq by apply lenR_nonneg. apply lenR_triangle.
Qed.
Lemma frob_cell A i j : (i < 4)%nat -> (j < 4)%nat -> Rabs (A i j) <= frobR 4 A.
Proof.
  intros Hi Hj. rewrite frob_rows. pose proof (lenR_ge 4 (fun i => lenR 4 (A i)) i Hi) as G. cbv beta in G.
  rewrite Rabs_pos_eq in G by apply lenR_nonneg. eapply Rle_trans; [apply lenR_ge; exact Hj|exact G].
Qed.
Lemma frob_step (k e : R) E H : 0 <= k -> 0 <= e -> (forall i, (i < 4)%nat -> lenR 4 (E i) <= k * lenR 4 (H i) + 3 * e) -> frobR 4 E <= k * frobR 4 H + 12 * e.
Proof.
  intros Hk He HE. rewrite !frob_rows.
  eapply Rle_trans; [apply (lenR_le 4 _ (fun i => k * lenR 4 (H i) + 3 * e))|].
  - intros i Hi. rewrite Rabs_pos_eq by apply lenR_nonneg. apply HE. exact Hi.
  - eapply Rle_trans; [apply (lenR_triangle 4 (fun i => k * lenR 4 (H i)) (fun _ => 3 * e))|].
    rewrite lenR_scal, (Rabs_pos_eq k Hk). pose proof (lenR_const 4 (3 * e) ltac:(lra)) as C. cbn [INR] in C. lra.
Qed.
Lemma frob_const A B : 0 <= B -> (forall i j, (i < 4)%nat -> (j < 4)%nat -> Rabs (A i j) <= B) -> frobR 4 A <= 16 * B.
Proof.
  intros HB HA. rewrite frob_rows. eapply Rle_trans; [apply (lenR_le 4 _ (fun _ => 4 * B))|].
  - intros i Hi. rewrite Rabs_pos_eq by apply lenR_nonneg. eapply Rle_trans; [apply (lenR_le 4 _ (fun _ => B)); intros j Hj; apply HA; assumption|].
    pose proof (lenR_const 4 B HB) as C. cbn [INR] in C. lra.
  - pose proof (lenR_const 4 (4 * B) ltac:(lra)) as C. cbn [INR] in C. lra.
Qed.

(** ** The exact step *)
Lemma axis_rot_opp a t i j : (i < 4)%nat -> (j < 4)%nat -> axis_rot a (- t) i j = axis_rot a t j i.
Proof. intros Hi Hj. unfold axis_rot. rewrite sin_neg, cos_neg. destruct a; cell4 i Hi; cell4 j Hj; cbn [nth]; try reflexivity; ring. Qed.
Lemma moveR_cells p a t A i j : (i < 4)%nat -> (j < 4)%nat ->
  moveR (p, a, t) A i j = match p with Post => rowR (A i) (axis_rot a t) j | Pre => rowR (fun q => A q j) (axis_rot a t) i end.
Proof.
  intros Hi Hj. destruct p; cbn [moveR]; unfold mmulR, rowR; apply rsum_ext; intros q Hq; [|reflexivity].
  rewrite (axis_rot_opp a t i q Hi Hq). ring.
Qed.
Lemma moveR_frob x A : frobR 4 (moveR x A) = frobR 4 A.
Proof.
  destruct x as [[p a] t]. destruct p.
  - rewrite (frob_ext _ (fun i j => rowR (fun q => A q j) (axis_rot a t) i)) by (intros i j Hi Hj; apply (moveR_cells Pre a t A i j Hi Hj)).
    rewrite <- frob_tr, <- (frob_tr A). rewrite !frob_rows. apply lenR_ext. intros i Hi. apply (rowR_len (fun q => A q i)).
  - rewrite !frob_rows. apply lenR_ext. intros i Hi. apply rowR_len.
Qed.
Lemma moveR_minus x A B i j : (i < 4)%nat -> (j < 4)%nat -> moveR x (fun i j => A i j - B i j) i j = moveR x A i j - moveR x B i j.
Proof.
  intros Hi Hj. destruct x as [[p a] t]. rewrite !moveR_cells by assumption. destruct p; apply rowR_minus.
Qed.
Lemma movedR_frob : forall l A, frobR 4 (movedR l A) = frobR 4 A.
Proof. induction l as [|x l IH]; intros A; [reflexivity|]. unfold movedR in *. cbn [fold_left]. rewrite IH. apply moveR_frob. Qed.

(** ** One computed step *)
Section Chain.
Context (cfg : Cfg) (TT : Trig f32) (d : R) (Hd : 0 <= d <= / 100) (GT : good_trig TT d).
Local Notation K := (2 * (d + 21 / 10 * uro)).
Definition valM (h : nat -> nat -> f32) (i j : nat) : R := val (h i j).
Definition finM (h : nat -> nat -> f32) : Prop := forall i j, (i < 4)%nat -> (j < 4)%nat -> fin (h i j).
Lemma move_step x m h : repM 4 4 m h -> fin (snd x) ->
  exists r k, move_about x m = Ok r /\ repM 4 4 r k /\
  (finM k -> finM h /\ frobR 4 (fun i j => valM k i j - moveR (fst x, val (snd x)) (valM h) i j) <= K * frobR 4 (valM h) + 12 * eta) /\
  (finM h -> frobR 4 (valM h) <= bpow radix2 120 -> finM k).
Proof.
  intros Hm Ft. destruct x as [[p a] t]. cbn [fst snd] in *. destruct (GT t Ft) as (Fs & Fc & Es & Ec).
  pose proof (trig_ok d Hd _ _ Fc (cos1 _) Ec) as OC. pose proof (trig_ok d Hd _ _ Fs (sin1 _) Es) as OS.
  pose proof (K_pos d Hd) as KP. pose proof eta_nn as EN.
  assert (OK : finM h -> frobR 4 (valM h) <= bpow radix2 120 -> forall i j, (i < 4)%nat -> (j < 4)%nat -> okf32 120 (h i j)).
  { intros F B i j Hi Hj. split; [apply F; assumption|]. eapply Rle_trans; [apply (frob_cell (valM h) i j Hi Hj)|exact B]. }
  destruct p.
  - destruct (pre_rotate_about_F (cfg := cfg) (TT := TT) a m h t Hm) as (r & Er & Hr). exists r, (fun i j => turnG a (scos t) (ssin t) (fun p q => h q p) j i).
    split; [exact Er|]. split; [exact Hr|]. split.
    + intros F.
      assert (S : forall j, (j < 4)%nat -> (forall i, (i < 4)%nat -> fin (h i j)) /\
        lenR 4 (fun i => val (turnG a (scos t) (ssin t) (fun p q => h q p) j i) - rowR (fun p => val (h p j)) (axis_rot a (val t)) i) <= K * lenR 4 (fun p => val (h p j)) + 3 * eta).
      { intros j Hj. apply (row_stepG d Hd (scos t) (ssin t) (val t) Ec Es a (fun p q => h q p) j). intros i Hi. apply (F i j Hi Hj). }
      split; [intros i j Hi Hj; apply (S j Hj); exact Hi|].
      rewrite (frob_ext _ (fun i j => val (turnG a (scos t) (ssin t) (fun p q => h q p) j i) - rowR (fun p => val (h p j)) (axis_rot a (val t)) i))
        by (intros i j Hi Hj; rewrite moveR_cells by assumption; reflexivity).
      rewrite <- frob_tr, <- (frob_tr (valM h)). apply frob_step; [exact KP|exact EN|]. intros j Hj. apply (S j Hj).
    + intros F B i j Hi Hj. apply turnG_fin; try assumption. intros q Hq. apply OK; assumption.
  - destruct (rotate_about_F (cfg := cfg) (TT := TT) a m h t Hm) as (r & Er & Hr). exists r, (turnF a (scos t) (ssin t) h).
    split; [exact Er|]. split; [exact Hr|]. split.
    + intros F.
      assert (S : forall i, (i < 4)%nat -> (forall j, (j < 4)%nat -> fin (h i j)) /\
        lenR 4 (fun j => val (turnF a (scos t) (ssin t) h i j) - rowR (fun p => val (h i p)) (axis_rot a (val t)) j) <= K * lenR 4 (fun p => val (h i p)) + 3 * eta).
      { intros i Hi. apply (row_step d Hd (scos t) (ssin t) (val t) Ec Es a h i). intros j Hj. apply (F i j Hi Hj). }
      split; [intros i j Hi Hj; apply (S i Hi); exact Hj|].
      rewrite (frob_ext _ (fun i j => val (turnF a (scos t) (ssin t) h i j) - rowR (fun p => val (h i p)) (axis_rot a (val t)) j))
        by (intros i j Hi Hj; rewrite moveR_cells by assumption; reflexivity).
      apply frob_step; [exact KP|exact EN|]. intros i Hi. apply (S i Hi).
    + intros F B i j Hi Hj. apply (turn_fin a); try assumption. intros q Hq. apply OK; assumption.
Qed.

Lemma move_all_spec : forall (l : list (side * axis * f32)) (m : list f32) h, repM 4 4 m h -> Forall (fun x => fin (snd x)) l ->
  exists r k, move_all m l = Ok r /\ repM 4 4 r k /\
  (finM k -> finM h /\
    forall (X : nat -> nat -> R) (L D : R), frobR 4 X <= L -> frobR 4 (fun i j => valM h i j - X i j) <= D ->
    frobR 4 (fun i j => valM k i j - movedR (real_moves l) X i j) <= (1 + K) ^ length l * D + ((1 + K) ^ length l - 1) * L + 12 * INR (length l) * (1 + K) ^ length l * eta) /\
  (finM h -> forall B, frobR 4 (valM h) <= B -> B * (1 + K) ^ length l + 12 * INR (length l) * (1 + K) ^ length l * eta <= bpow radix2 120 -> finM k).
Proof.
  pose proof (K_pos d Hd) as KP. pose proof eta_pos as EP.
  induction l as [|x l IH]; intros m h Hm HL.
  - exists m, h. split; [reflexivity|]. split; [exact Hm|]. split; [|intros F B _ _; exact F]. intros F. split; [exact F|]. intros X L D HX HD.
    cbn [length pow INR]. change (movedR (real_moves []) X) with X. eapply Rle_trans; [exact HD|]. lra.
  - inversion HL as [|? ? Ft HL']; subst. destruct (move_step x m h Hm Ft) as (y & k1 & Ey & Hy & S1 & S2).
    cbn [move_all]. rewrite Ey. cbn [bind].
    destruct (IH y _ Hy HL') as (r & k & Er & Hr & T1 & T2). exists r, k. split; [exact Er|]. split; [exact Hr|].
    cbn [length]. rewrite <- tech_pow_Rmult, S_INR. set (P := (1 + K) ^ length l) in *. set (n := INR (length l)) in *.
    assert (P1 : 1 <= P) by (apply pow_R1_Rle; lra). assert (N0 : 0 <= n) by apply pos_INR.
    assert (G0 : 0 <= n * P * eta) by (apply Rmult_le_pos; [apply Rmult_le_pos|]; lra).
    assert (G1 : 0 <= P * eta) by (apply Rmult_le_pos; lra).
    assert (G2 : 0 <= K * (n * P * eta)) by (apply Rmult_le_pos; assumption).
    assert (G3 : 0 <= K * (P * eta)) by (apply Rmult_le_pos; assumption).
    set (xr := (fst x, val (snd x))) in *.
    split.
    + intros F. destruct (T1 F) as (F1 & T1'). destruct (S1 F1) as (F0 & S1'). split; [exact F0|]. intros X L D HX HD.
      assert (LH : frobR 4 (valM h) <= L + D).
      { rewrite (frob_ext (valM h) (fun i j => X i j + (valM h i j - X i j))) by (intros; ring). eapply Rle_trans; [apply frob_triangle|]. lra. }
      assert (D1 : frobR 4 (fun i j => valM k1 i j - moveR xr X i j) <= D + K * (L + D) + 12 * eta).
      { rewrite (frob_ext _ (fun i j => (valM k1 i j - moveR xr (valM h) i j) + moveR xr (fun i j => valM h i j - X i j) i j))
          by (intros i j Hi Hj; rewrite moveR_minus by assumption; ring).
        eapply Rle_trans; [apply frob_triangle|].
        change (frobR 4 (fun i j => moveR xr (fun i j => valM h i j - X i j) i j)) with (frobR 4 (moveR xr (fun i j => valM h i j - X i j))). rewrite moveR_frob.
        assert (K * frobR 4 (valM h) <= K * (L + D)) by (apply Rmult_le_compat_l; assumption). lra. }
      assert (LX : frobR 4 (moveR xr X) <= L) by (rewrite moveR_frob; exact HX).
      pose proof (T1' _ L _ LX D1) as R1. change (movedR (real_moves (x :: l)) X) with (movedR (real_moves l) (moveR xr X)).
      eapply Rle_trans; [exact R1|].
      replace (P * (D + K * (L + D) + 12 * eta) + (P - 1) * L + 12 * n * P * eta) with ((1 + K) * P * D + ((1 + K) * P - 1) * L + 12 * (n + 1) * P * eta) by ring.
      replace (12 * (n + 1) * ((1 + K) * P) * eta) with (12 * (n + 1) * P * eta + 12 * (K * (n * P * eta)) + 12 * (K * (P * eta))) by ring. lra.
    + intros F B HB HT. pose proof (frob_nn (valM h)) as L0.
      assert (G4 : 0 <= K * (B * P)) by (apply Rmult_le_pos; [assumption|]; apply Rmult_le_pos; lra).
      assert (G5 : B <= B * P) by (rewrite <- (Rmult_1_r B) at 1; apply Rmult_le_compat_l; lra).
      replace (B * ((1 + K) * P) + 12 * (n + 1) * ((1 + K) * P) * eta) with
        (B * P + K * (B * P) + 12 * (n * P * eta) + 12 * (P * eta) + 12 * (K * (n * P * eta)) + 12 * (K * (P * eta))) in HT by ring.
      assert (F1 : finM k1) by (apply S2; [exact F|lra]). destruct (S1 F1) as (_ & E0).
      apply (T2 F1 ((1 + K) * B + 12 * eta)).
      * rewrite (frob_ext _ (fun i j => moveR xr (valM h) i j + (valM k1 i j - moveR xr (valM h) i j))) by (intros; ring).
        eapply Rle_trans; [apply frob_triangle|].
        change (frobR 4 (fun i j => moveR xr (valM h) i j)) with (frobR 4 (moveR xr (valM h))). rewrite moveR_frob.
        assert (K * frobR 4 (valM h) <= K * B) by (apply Rmult_le_compat_l; assumption). lra.
      * replace (((1 + K) * B + 12 * eta) * P + 12 * n * P * eta) with (B * P + K * (B * P) + 12 * (P * eta) + 12 * (n * P * eta)) by ring. lra.
Qed.
End Chain.

(** C215. *)
Theorem C215_rotations_from_both_sides :
  forall (cfg : Cfg) (TT : Trig f32) (d : R) (m : list f32) (l : list (side * axis * f32)),
  0 <= d <= / 100 -> good_trig TT d -> length m = 16%nat -> Forall (fun x => fin (snd x)) l ->
  (forall x, In x m -> fin x /\ Rabs (val x) <= 2 ^ 110) ->
  let K := 2 * d + 42 / 10 / 2 ^ 24 in
  let n := length l in
  2 * INR n * K <= 1 ->
  exists r, move_all m l = Ok r /\ length r = 16%nat /\ (forall x, In x r -> fin x) /\
  let X := movedR (real_moves l) (mcells 4 m) in
  frobR 4 X = frobR 4 (mcells 4 m) /\
  frobR 4 (fun i j => mcells 4 r i j - X i j) <= 2 * INR n * K * frobR 4 (mcells 4 m) + 24 * INR n / 2 ^ 150.
Proof.
  intros cfg TT d m l Hd GT Lm HL HB K n HK. pose proof (repM_nth 4 4 m f32_zero Lm) as Hm.
  assert (KE : K = 2 * (d + 21 / 10 * uro)) by (unfold K, uro; field; apply pow_nonzero; lra).
  pose proof (K_pos d Hd) as KP. rewrite <- KE in KP. pose proof (pos_INR n) as N0. pose proof eta_pos as EP.
  pose proof (pow_bern K n KP HK) as PB.
  assert (P1 : 1 <= (1 + K) ^ n) by (apply pow_R1_Rle; lra).
  destruct (move_all_spec cfg TT d Hd GT l m _ Hm HL) as (r & k & Er & Hr & S1 & S2). rewrite <- KE in S1, S2. fold n in S1, S2.
  set (h := fun i j : nat => nth (j * 4 + i) m f32_zero) in *.
  change (valM h) with (mcells 4 m) in *.
  assert (FH : finM h) by (intros i j Hi Hj; apply HB; apply nth_In; lia).
  set (P := (1 + K) ^ n) in *.
  assert (FK : finM k).
  { apply (S2 FH (16 * 2 ^ 110)).
    - apply frob_const; [apply pow_le; lra|]. intros i j Hi Hj. apply HB. apply nth_In. lia.
    - assert (NE : INR n * eta <= 1).
      { assert (U : uro <= K) by (rewrite KE; pose proof uro_small; lra). pose proof eta_small as ES. pose proof uro_small as US.
        assert (INR n * eta <= INR n * K) by (apply Rmult_le_compat_l; lra). lra. }
      replace (bpow radix2 120) with (1024 * 2 ^ 110) by (replace 1024 with (2 ^ 10) by lra; rewrite <- pow_add; exact (eq_sym (bp_pow 120))).
      assert (B1 : 1 <= 2 ^ 110) by (apply pow_R1_Rle; lra). set (B := 2 ^ 110) in *.
      assert (16 * B * P <= 16 * B * 2) by (apply Rmult_le_compat_l; lra).
      assert (P * (INR n * eta) <= 2 * 1) by (apply Rmult_le_compat; try lra; apply Rmult_le_pos; lra).
      replace (12 * INR n * P * eta) with (12 * (P * (INR n * eta))) by ring. lra. }
  destruct (S1 FK) as (_ & S3). exists r. split; [exact Er|]. split; [apply Hr|]. split; [|intros X; split].
  - apply (cells_all 4 r (proj1 Hr)). intros i j Hi Hj. rewrite (nth_error_nth r (j * 4 + i) f32_zero (proj2 Hr i j Hi Hj)). apply FK; assumption.
  - apply movedR_frob.
  - rewrite (frob_ext _ (fun i j => valM k i j - X i j)) by (intros i j Hi Hj; rewrite (rep_mcells 4 r k Hr i j Hi Hj); reflexivity).
    eapply Rle_trans; [apply (S3 (mcells 4 m) _ 0 (Rle_refl _))|].
    + rewrite (frob_ext _ (fun _ _ => 0)) by (intros; ring). right. transitivity (sqrt 0); [unfold frobR; f_equal; cbn [rsum]; ring|apply sqrt_0].
    + pose proof (frob_nn (mcells 4 m)) as L0. set (L := frobR 4 (mcells 4 m)) in *. unfold Rdiv. fold eta.
      assert ((P - 1) * L <= 2 * INR n * K * L) by (apply Rmult_le_compat_r; lra).
      assert (INR n * eta * P <= INR n * eta * 2) by (apply Rmult_le_compat_l; [apply Rmult_le_pos; lra|lra]). lra.
Qed.
Print Assumptions C215_rotations_from_both_sides.

(** Orthonormal rows stay orthonormal up to the drift. *)
Definition orth4 (A : nat -> nat -> R) : Prop := forall i j, (i < 4)%nat -> (j < 4)%nat -> dotR 4 (A i) (A j) = if (i =? j)%nat then 1 else 0.
Lemma dot_comb (A : nat -> nat -> R) (u w : nat -> R) :
  dotR 4 (fun k => rsum 4 (fun p => u p * A p k)) (fun k => rsum 4 (fun p => w p * A p k)) =
  rsum 4 (fun p => rsum 4 (fun q => u p * w q * dotR 4 (A p) (A q))).
Proof. rewrite dot4. cbn [rsum]. rewrite !dot4. ring. Qed.
Lemma moveR_orth x A : orth4 A -> orth4 (moveR x A).
Proof.
  intros HA i j Hi Hj. destruct x as [[p a] t]. destruct p.
  - cbn [moveR]. change (dotR 4 (mmulR 4 (axis_rot a (- t)) A i) (mmulR 4 (axis_rot a (- t)) A j)) with
      (dotR 4 (fun k => rsum 4 (fun p => axis_rot a (- t) i p * A p k)) (fun k => rsum 4 (fun p => axis_rot a (- t) j p * A p k))).
    rewrite dot_comb.
    rewrite (rsum_ext 4 _ (fun p => axis_rot a (- t) i p * axis_rot a (- t) j p)).
    + pose proof (sc1 (- t)) as E1. destruct a; cell4 i Hi; cell4 j Hj; cbn [rsum axis_rot nth Nat.eqb];
        generalize dependent (sin (- t)); generalize dependent (cos (- t)); intros c s E1; try lra; rewrite <- E1; ring.
    + intros p Hp. rewrite (rsum_ext 4 _ (fun q => axis_rot a (- t) i p * axis_rot a (- t) j q * (if (p =? q)%nat then 1 else 0)))
        by (intros q Hq; rewrite (HA p q Hp Hq); reflexivity).
      cell4 p Hp; cbn [rsum Nat.eqb]; ring.
  - transitivity (dotR 4 (A i) (A j)); [apply (rowR_dot (A i) (A j) a t)|apply HA; assumption].
Qed.
Lemma movedR_orth : forall l A, orth4 A -> orth4 (movedR l A).
Proof. induction l as [|x l IH]; intros A HA; [exact HA|]. unfold movedR in *. cbn [fold_left]. apply IH. apply moveR_orth. exact HA. Qed.
Theorem C215_orthonormal :
  forall (cfg : Cfg) (TT : Trig f32) (d : R) (m : list f32) (l : list (side * axis * f32)),
  0 <= d <= / 100 -> good_trig TT d -> length m = 16%nat -> Forall (fun x => fin (snd x)) l ->
  (forall x, In x m -> fin x) ->
  (forall i j, (i < 4)%nat -> (j < 4)%nat -> dotR 4 (mcells 4 m i) (mcells 4 m j) = if (i =? j)%nat then 1 else 0) ->
  let K := 2 * d + 42 / 10 / 2 ^ 24 in
  let n := length l in
  2 * INR n * K <= 1 ->
  exists r, move_all m l = Ok r /\ length r = 16%nat /\ (forall x, In x r -> fin x) /\
  let E := 4 * INR n * K + 24 * INR n / 2 ^ 150 in
  forall i j, (i < 4)%nat -> (j < 4)%nat ->
    Rabs (dotR 4 (mcells 4 r i) (mcells 4 r j) - (if (i =? j)%nat then 1 else 0)) <= 2 * E + E * E.
Proof.
  intros cfg TT d m l Hd GT Lm HL HF HO K n HK.
  assert (L1 : forall A, orth4 A -> forall i, (i < 4)%nat -> lenR 4 (A i) = 1).
  { intros A HA i Hi. unfold lenR. rewrite (HA i i Hi Hi), Nat.eqb_refl. apply sqrt_1. }
  destruct (C215_rotations_from_both_sides cfg TT d m l Hd GT Lm HL) as (r & Er & Lr & Fr & _ & C).
  - intros x Hx. split; [apply HF; exact Hx|]. apply (In_nth _ _ f32_zero) in Hx. destruct Hx as (p & Hp & <-). rewrite Lm in Hp.
    assert (H4 : (p mod 4 < 4)%nat) by (apply Nat.mod_upper_bound; lia).
    assert (H5 : (p / 4 < 4)%nat) by (apply Nat.div_lt_upper_bound; lia).
    pose proof (lenR_ge 4 (mcells 4 m (p mod 4)%nat) (p / 4)%nat H5) as G. rewrite (L1 _ HO _ H4) in G.
    unfold mcells in G. replace (p / 4 * 4 + p mod 4)%nat with p in G by (pose proof (Nat.div_mod p 4 ltac:(lia)); lia).
    eapply Rle_trans; [exact G|]. apply pow_R1_Rle. lra.
  - exact HK.
  - exists r. split; [exact Er|]. split; [exact Lr|]. split; [exact Fr|]. intros E i j Hi Hj. fold K n in C.
    set (X := movedR (real_moves l) (mcells 4 m)) in *.
    assert (XO : orth4 X) by (apply movedR_orth; exact HO).
    assert (F2 : frobR 4 (mcells 4 m) = 2).
    { rewrite frob_rows. rewrite (lenR_ext 4 _ (fun _ => 1)) by (intros q Hq; apply L1; [exact HO|exact Hq]).
      unfold lenR. rewrite dot4. replace (1 * 1 + 1 * 1 + 1 * 1 + 1 * 1) with (2 * 2) by ring. apply sqrt_square. lra. }
    rewrite F2 in C. set (e := fun p q => mcells 4 r p q - X p q) in *.
    assert (E0 : frobR 4 e <= E) by (eapply Rle_trans; [exact C|unfold E; right; ring]).
    assert (EL : forall p, (p < 4)%nat -> lenR 4 (e p) <= E).
    { intros p Hp. eapply Rle_trans; [|exact E0]. rewrite frob_rows. pose proof (lenR_ge 4 (fun p => lenR 4 (e p)) p Hp) as G. cbv beta in G.
      rewrite Rabs_pos_eq in G by apply lenR_nonneg. exact G. }
    assert (EN : 0 <= E) by (eapply Rle_trans; [apply frob_nn|exact E0]).
    rewrite <- (XO i j Hi Hj).
    replace (dotR 4 (mcells 4 r i) (mcells 4 r j) - dotR 4 (X i) (X j)) with (dotR 4 (X i) (e j) + dotR 4 (e i) (X j) + dotR 4 (e i) (e j))
      by (rewrite !dot4; unfold e; ring).
    pose proof (lenR_cs 4 (X i) (e j)) as C1. pose proof (lenR_cs 4 (e i) (X j)) as C2. pose proof (lenR_cs 4 (e i) (e j)) as C3.
    rewrite (L1 X XO i Hi) in C1. rewrite (L1 X XO j Hj) in C2. pose proof (EL i Hi) as Ei. pose proof (EL j Hj) as Ej.
    assert (lenR 4 (e i) * lenR 4 (e j) <= E * E) by (apply Rmult_le_compat; try apply lenR_nonneg; assumption).
    eapply Rle_trans; [apply tri; [apply tri|]; [exact C1|exact C2|exact C3]|]. lra.
Qed.
Print Assumptions C215_orthonormal.

Example C215_hypotheses_met :
  let l := repeat (Pre, AX, f32_one) 1000 ++ repeat (Post, AZ, f32_two) 1000 in
  good_trig grid_trig (/ 2 ^ 23) /\ length idm32 = 16%nat /\ Forall (fun x => fin (snd x)) l /\ (forall x, In x idm32 -> fin x /\ Rabs (val x) <= 2 ^ 110) /\
  2 * INR (length l) * (2 * / 2 ^ 23 + 42 / 10 / 2 ^ 24) <= 1 /\ frobR 4 (mcells 4 idm32) = 2.
Proof.
  intros l. assert (Z : val f32_zero = 0) by reflexivity. split; [exact grid_trig_good|]. split; [reflexivity|]. split; [|split; [|split]].
  - apply Forall_app. split; apply Forall_forall; intros x Hx; apply repeat_spec in Hx; subst x; reflexivity.
  - assert (1 <= 2 ^ 110) by (apply pow_R1_Rle; lra).
    intros x Hx. cbn -[f32_one f32_zero] in Hx. repeat (destruct Hx as [<-|Hx]; [split; [reflexivity|rewrite ?val_one, ?Z, ?Rabs_R0, ?Rabs_R1; lra]|]). destruct Hx.
  - unfold l. rewrite app_length, !repeat_length. rewrite INR_IZR_INZ. change (Z.of_nat (1000 + 1000)) with 2000%Z. lra.
  - unfold frobR. replace 2 with (sqrt (2 * 2)) by (apply sqrt_square; lra). f_equal. cbn [rsum]. unfold mcells.
    cbn -[f32_one f32_zero val IZR Rmult Rplus]; rewrite ?val_one, ?Z; ring.
Qed.
