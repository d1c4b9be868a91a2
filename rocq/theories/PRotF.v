(** Properties C173, C174: rotations in double, with sine and cosine of a given
    accuracy. *)
From Coq Require Import ZArith Reals Lra Psatz List.
From Flocq Require Import Core.Core IEEE754.BinarySingleNaN IEEE754.Binary IEEE754.Bits.
From Verif Require Import InstF MMatrix LMatrix LMat4 LSum Spec Spec3 Spec13 PFloat LFloat PFloat2 LErr PMatrix3 PRayF PQrF PQrO PChain LRot.
Import ListNotations.
Local Open Scope R_scope.
Local Open Scope list_scope.
Local Existing Instance F64Scalar.

(** The platform's sin and cos: finite and within d of the true values at every
    finite argument. *)
Definition good_trig (TT : Trig f64) (d : R) : Prop :=
  forall t : f64, fin t ->
    fin (ssin t) /\ fin (scos t) /\ Rabs (val (ssin t) - sin (val t)) <= d /\ Rabs (val (scos t) - cos (val t)) <= d.

(** ** The operations *)
Local Notation "a *' b" := (b64_mult mode_NE a b) (at level 40, left associativity).
Local Notation "a +' b" := (b64_plus mode_NE a b) (at level 50, left associativity).
Local Notation "a -' b" := (b64_minus mode_NE a b) (at level 50, left associativity).
Lemma uro_small : 0 < uro <= / 1000000. Proof. rewrite uro_val. lra. Qed.
Lemma eta_nn : 0 <= eta. Proof. pose proof eta_pos. lra. Qed.
Lemma mult_E a b : fin (a *' b) -> fin a /\ fin b /\ Rabs (val (a *' b) - val a * val b) <= uro * Rabs (val a * val b) + eta.
Proof.
  intros H. destruct (fin_mult _ _ H) as (Fa & Fb & ->). split; [exact Fa|]. split; [exact Fb|].
  destruct (mult_error (val a) (val b)) as (d & e & Hd & He & ->).
  replace (val a * val b * (1 + d) + e - val a * val b) with (d * (val a * val b) + e) by ring.
  apply tri; [|exact He]. rewrite Rabs_mult. apply Rmult_le_compat_r; [apply Rabs_pos|exact Hd].
Qed.
Lemma plus_E a b : fin (a +' b) -> fin a /\ fin b /\ Rabs (val (a +' b) - (val a + val b)) <= uro * Rabs (val a + val b).
Proof.
  intros H. destruct (fin_plus _ _ H) as (Fa & Fb & ->). split; [exact Fa|]. split; [exact Fb|].
  destruct (plus_error a b) as (d & Hd & ->). replace ((val a + val b) * (1 + d) - (val a + val b)) with (d * (val a + val b)) by ring.
  rewrite Rabs_mult. apply Rmult_le_compat_r; [apply Rabs_pos|exact Hd].
Qed.
Lemma minus_E a b : fin (a -' b) -> fin a /\ fin b /\ Rabs (val (a -' b) - (val a - val b)) <= uro * Rabs (val a - val b).
Proof.
  intros H. destruct (fin_minus _ _ H) as (Fa & Fb & d & Hd & ->). split; [exact Fa|]. split; [exact Fb|].
  replace ((val a - val b) * (1 + d) - (val a - val b)) with (d * (val a - val b)) by ring.
  rewrite Rabs_mult. apply Rmult_le_compat_r; [apply Rabs_pos|exact Hd].
Qed.
Lemma opp_E a : val (b64_opp a) = - val a /\ (fin (b64_opp a) <-> fin a).
Proof. split; [unfold val, b64_opp; apply B2R_Bopp|]. unfold fin, b64_opp. rewrite is_finite_Bopp. tauto. Qed.

(** ** rotate_x, rotate_y, rotate_z *)
Definition rotate_about {cfg : Cfg} {TT : Trig f64} (a : axis) (m : list f64) (t : f64) : res (list f64) :=
  match a with AX => mat_rotate_x m t | AY => mat_rotate_y m t | AZ => mat_rotate_z m t end.
Definition ax1 (a : axis) : nat := match a with AX => 1 | _ => 0 end%nat.
Definition ax2 (a : axis) : nat := match a with AZ => 1 | _ => 2 end%nat.
Definition turnF (a : axis) (c s : f64) (h : nat -> nat -> f64) (i j : nat) : f64 :=
  let x := h i (ax1 a) in let y := h i (ax2 a) in
  if (j =? ax1 a)%nat then (match a with AY => x *' c -' y *' s | _ => x *' c +' y *' s end)
  else if (j =? ax2 a)%nat then (match a with AY => x *' s +' y *' c | _ => b64_opp x *' s +' y *' c end)
  else h i j.
Lemma rotate_about_F {cfg : Cfg} {TT : Trig f64} a m h t : repM 4 4 m h ->
  returns (rotate_about a m t) (fun r => repM 4 4 r (turnF a (scos t) (ssin t) h)).
Proof.
  intros Hm. destruct a; cbn [rotate_about];
  (lit Hm; cbn -[b64_mult b64_plus b64_minus b64_opp]; apply returns_ok; apply repM_44'; cbn -[b64_mult b64_plus b64_minus b64_opp]; reflexivity).
Qed.

Section Step.
Context (d : R) (Hd : 0 <= d <= / 100) (c s : f64) (t : R) (Hc : Rabs (val c - cos t) <= d) (Hs : Rabs (val s - sin t) <= d).
Lemma cos1 : Rabs (cos t) <= 1. Proof. pose proof (COS_bound t). apply Rabs_le. lra. Qed.
Lemma sin1 : Rabs (sin t) <= 1. Proof. pose proof (SIN_bound t). apply Rabs_le. lra. Qed.
Local Notation kp := (d + 21 / 10 * uro).
Lemma pair1 x y : fin (x *' c +' y *' s) -> fin x /\ fin y /\
  Rabs (val (x *' c +' y *' s) - (val x * cos t + val y * sin t)) <= kp * (Rabs (val x) + Rabs (val y)) + 21 / 10 * eta.
Proof.
  intros H. destruct (plus_E _ _ H) as (F1 & F2 & E). destruct (mult_E _ _ F1) as (Fx & _ & E1). destruct (mult_E _ _ F2) as (Fy & _ & E2).
  split; [exact Fx|]. split; [exact Fy|].
  exact (pair_real uro eta d _ _ _ _ _ _ _ _ _ uro_small eta_nn Hd cos1 sin1 Hc Hs E1 E2 E).
Qed.
Lemma pair2 x y : fin (x *' c -' y *' s) -> fin x /\ fin y /\
  Rabs (val (x *' c -' y *' s) - (val x * cos t - val y * sin t)) <= kp * (Rabs (val x) + Rabs (val y)) + 21 / 10 * eta.
Proof.
  intros H. destruct (minus_E _ _ H) as (F1 & F2 & E). destruct (mult_E _ _ F1) as (Fx & _ & E1). destruct (mult_E _ _ F2) as (Fy & _ & E2).
  split; [exact Fx|]. split; [exact Fy|].
  exact (pair_real_minus uro eta d _ _ _ _ _ _ _ _ _ uro_small eta_nn Hd cos1 sin1 Hc Hs E1 E2 E).
Qed.
Lemma pair3 x y : fin (x *' s +' y *' c) -> fin x /\ fin y /\
  Rabs (val (x *' s +' y *' c) - (val x * sin t + val y * cos t)) <= kp * (Rabs (val x) + Rabs (val y)) + 21 / 10 * eta.
Proof.
  intros H. destruct (plus_E _ _ H) as (F1 & F2 & E). destruct (mult_E _ _ F1) as (Fx & _ & E1). destruct (mult_E _ _ F2) as (Fy & _ & E2).
  split; [exact Fx|]. split; [exact Fy|].
  exact (pair_real uro eta d _ _ _ _ _ _ _ _ _ uro_small eta_nn Hd sin1 cos1 Hs Hc E1 E2 E).
Qed.
Lemma pair4 x y : fin (b64_opp x *' s +' y *' c) -> fin x /\ fin y /\
  Rabs (val (b64_opp x *' s +' y *' c) - (- val x * sin t + val y * cos t)) <= kp * (Rabs (val x) + Rabs (val y)) + 21 / 10 * eta.
Proof.
  intros H. destruct (opp_E x) as (VO & FO). destruct (pair3 (b64_opp x) y H) as (Fx & Fy & E). rewrite VO, Rabs_Ropp in E.
  split; [apply FO; exact Fx|]. split; [exact Fy|exact E].
Qed.
(** One row of one rotation. *)
Lemma row_step a h i : (forall j, (j < 4)%nat -> fin (turnF a c s h i j)) ->
  (forall j, (j < 4)%nat -> fin (h i j)) /\
  lenR 4 (fun j => val (turnF a c s h i j) - rowR (fun p => val (h i p)) (axis_rot a t) j) <= 2 * kp * lenR 4 (fun p => val (h i p)) + 3 * eta.
Proof.
  intros F.
  assert (KP : 0 <= kp) by (pose proof uro_small; lra).
  assert (A : ((forall j, (j < 4)%nat -> fin (h i j)) /\
    Rabs (val (turnF a c s h i (ax1 a)) - rowR (fun p => val (h i p)) (axis_rot a t) (ax1 a)) <= kp * (Rabs (val (h i (ax1 a))) + Rabs (val (h i (ax2 a)))) + 21 / 10 * eta /\
    Rabs (val (turnF a c s h i (ax2 a)) - rowR (fun p => val (h i p)) (axis_rot a t) (ax2 a)) <= kp * (Rabs (val (h i (ax1 a))) + Rabs (val (h i (ax2 a)))) + 21 / 10 * eta) /\
    (forall j, (j < 4)%nat -> j <> ax1 a -> j <> ax2 a -> val (turnF a c s h i j) - rowR (fun p => val (h i p)) (axis_rot a t) j = 0)).
  { split.
    - destruct a; cbn [ax1 ax2] in *.
      + destruct (pair1 _ _ (F 1%nat ltac:(lia))) as (F1 & F2 & E1). destruct (pair4 _ _ (F 2%nat ltac:(lia))) as (_ & _ & E2).
        split; [intros j Hj; cell4 j Hj; [exact (F 0%nat ltac:(lia))|exact F1|exact F2|exact (F 3%nat ltac:(lia))]|].
        unfold rowR; cbn -[b64_mult b64_plus b64_minus b64_opp IZR Rplus Rminus Rmult Ropp Rdiv sin cos uro eta]. split; [eapply Rle_trans; [|exact E1]|eapply Rle_trans; [|exact E2]]; right; f_equal; f_equal; cbn [ax1 ax2]; ring.
      + destruct (pair2 _ _ (F 0%nat ltac:(lia))) as (F1 & F2 & E1). destruct (pair3 _ _ (F 2%nat ltac:(lia))) as (_ & _ & E2).
        split; [intros j Hj; cell4 j Hj; [exact F1|exact (F 1%nat ltac:(lia))|exact F2|exact (F 3%nat ltac:(lia))]|].
        unfold rowR; cbn -[b64_mult b64_plus b64_minus b64_opp IZR Rplus Rminus Rmult Ropp Rdiv sin cos uro eta]. split; [eapply Rle_trans; [|exact E1]|eapply Rle_trans; [|exact E2]]; right; f_equal; f_equal; cbn [ax1 ax2]; ring.
      + destruct (pair1 _ _ (F 0%nat ltac:(lia))) as (F1 & F2 & E1). destruct (pair4 _ _ (F 1%nat ltac:(lia))) as (_ & _ & E2).
        split; [intros j Hj; cell4 j Hj; [exact F1|exact F2|exact (F 2%nat ltac:(lia))|exact (F 3%nat ltac:(lia))]|].
        unfold rowR; cbn -[b64_mult b64_plus b64_minus b64_opp IZR Rplus Rminus Rmult Ropp Rdiv sin cos uro eta]. split; [eapply Rle_trans; [|exact E1]|eapply Rle_trans; [|exact E2]]; right; f_equal; f_equal; cbn [ax1 ax2]; ring.
    - intros j Hj N1 N2. destruct a; cell4 j Hj; try (exfalso; cbn in N1, N2; lia);
        unfold rowR; cbn -[b64_mult b64_plus b64_minus b64_opp IZR Rplus Rminus Rmult Ropp Rdiv sin cos uro eta]; ring. }
  destruct A as ((A0 & A1 & A2) & A3). split; [exact A0|].
  apply (row_two kp eta (fun p => val (h i p)) _ (ax1 a) (ax2 a) KP eta_nn).
  - destruct a; cbn; lia.
  - exact A3.
  - exact A1.
  - exact A2.
Qed.
End Step.

(** The caller's program: m.rotate_a1( t1 ); m.rotate_a2( t2 ); ... *)
Fixpoint rotate_all {cfg : Cfg} {TT : Trig f64} (m : list f64) (l : list (axis * f64)) : res (list f64) :=
  match l with
  | [] => Ok m
  | (a, t) :: l' => x <- rotate_about a m t ;; rotate_all x l'
  end.
Definition angles (l : list (axis * f64)) : list (axis * R) := map (fun x => (fst x, val (snd x))) l.

(** The exact row: it keeps its length. *)
Definition turned_row (v : nat -> R) (l : list (axis * R)) : nat -> R := fold_left (fun v x => rowR v (axis_rot (fst x) (snd x))) l v.
Lemma turned_is_row : forall l A i, turned A l i = turned_row (A i) l.
Proof. induction l as [|x l IH]; intros A i; [reflexivity|]. unfold turned, turned_row in *. cbn [fold_left]. rewrite IH. reflexivity. Qed.
Lemma turned_row_len : forall l v, lenR 4 (turned_row v l) = lenR 4 v.
Proof. induction l as [|x l IH]; intros v; [reflexivity|]. unfold turned_row in *. cbn [fold_left]. rewrite IH. apply rowR_len. Qed.

Lemma rowR_dot v w a t : dotR 4 (rowR v (axis_rot a t)) (rowR w (axis_rot a t)) = dotR 4 v w.
Proof.
  rewrite !dot4. unfold rowR. pose proof (sc1 t) as E1. assert (E : sin t * sin t = 1 - cos t * cos t) by lra. clear E1.
  destruct a; cbn [rsum axis_rot nth]; generalize dependent (sin t); generalize dependent (cos t); intros c s E;
    set (x := v 0%nat); set (y := v 1%nat); set (z := v 2%nat); set (u := v 3%nat);
    set (x' := w 0%nat); set (y' := w 1%nat); set (z' := w 2%nat); set (u' := w 3%nat); clearbody x y z u x' y' z' u'.
  - transitivity (x * x' + (s * s + c * c) * (y * y' + z * z') + u * u'); [ring|rewrite E; ring].
  - transitivity (y * y' + (s * s + c * c) * (x * x' + z * z') + u * u'); [ring|rewrite E; ring].
  - transitivity (z * z' + (s * s + c * c) * (x * x' + y * y') + u * u'); [ring|rewrite E; ring].
Qed.
Lemma turned_row_dot : forall l v w, dotR 4 (turned_row v l) (turned_row w l) = dotR 4 v w.
Proof. induction l as [|x l IH]; intros v w; [reflexivity|]. unfold turned_row in *. cbn [fold_left]. rewrite IH. apply rowR_dot. Qed.

Section Chain.
Context (cfg : Cfg) (TT : Trig f64) (d : R) (Hd : 0 <= d <= / 100) (GT : good_trig TT d).
Local Notation K := (2 * (d + 21 / 10 * uro)).
Lemma K_pos : 0 <= K. Proof. pose proof uro_small. lra. Qed.

Lemma rotate_all_spec : forall (l : list (axis * f64)) (m : list f64) h, repM 4 4 m h -> Forall (fun x => fin (snd x)) l ->
  exists r k, rotate_all m l = Ok r /\ repM 4 4 r k /\ forall i, (i < 4)%nat ->
    (forall j, (j < 4)%nat -> fin (k i j)) ->
    (forall j, (j < 4)%nat -> fin (h i j)) /\
    forall (X : nat -> R) (L D : R), lenR 4 X <= L -> lenR 4 (fun j => val (h i j) - X j) <= D ->
    lenR 4 (fun j => val (k i j) - turned_row X (angles l) j) <= (1 + K) ^ length l * D + ((1 + K) ^ length l - 1) * L + 3 * INR (length l) * (1 + K) ^ length l * eta.
Proof.
  induction l as [|[a t] l IH]; intros m h Hm HL.
  - exists m, h. split; [reflexivity|]. split; [exact Hm|]. intros i Hi F. split; [exact F|]. intros X L D HX HD. cbn -[Rmult Rplus Rminus]. cbn [pow INR].
    eapply Rle_trans; [exact HD|]. lra.
  - inversion HL as [|? ? Ft HL']; subst. cbn [snd] in Ft. destruct (GT t Ft) as (Fs & Fc & Es & Ec).
    destruct (rotate_about_F (cfg := cfg) (TT := TT) a m h t Hm) as (x & Ex & Hx). cbn [rotate_all]. rewrite Ex. cbn [bind].
    destruct (IH x _ Hx HL') as (r & k & Er & Hr & Kk). exists r, k. split; [exact Er|]. split; [exact Hr|]. intros i Hi F.
    destruct (Kk i Hi F) as (FX & KX). destruct (row_step d Hd (scos t) (ssin t) (val t) Ec Es a h i FX) as (F0 & E0). split; [exact F0|].
    intros X L D HX HD. cbn [angles map length fst snd]. unfold turned_row. cbn [fold_left fst snd].
    pose proof K_pos as KP. pose proof eta_pos as EP.
    set (H := fun p => val (h i p)) in *.
    assert (LH : lenR 4 H <= L + D).
    { rewrite (lenR_ext 4 H (fun j => X j + (H j - X j))) by (intros; ring). eapply Rle_trans; [apply lenR_triangle|]. unfold H in *. lra. }
    assert (D1 : lenR 4 (fun j => val (turnF a (scos t) (ssin t) h i j) - rowR X (axis_rot a (val t)) j) <= D + K * (L + D) + 3 * eta).
    { rewrite (lenR_ext 4 _ (fun j => (val (turnF a (scos t) (ssin t) h i j) - rowR H (axis_rot a (val t)) j) + rowR (fun p => H p - X p) (axis_rot a (val t)) j))
        by (intros j Hj; rewrite rowR_minus; ring).
      eapply Rle_trans; [apply lenR_triangle|]. rewrite rowR_len.
      assert (K * lenR 4 H <= K * (L + D)) by (apply Rmult_le_compat_l; assumption). unfold H in *. lra. }
    assert (LX : lenR 4 (rowR X (axis_rot a (val t))) <= L) by (rewrite rowR_len; exact HX).
    pose proof (KX _ L _ LX D1) as R1. fold (turned_row (rowR X (axis_rot a (val t))) (angles l)).
    eapply Rle_trans; [exact R1|]. rewrite <- tech_pow_Rmult, S_INR. set (P := (1 + K) ^ length l) in *. set (n := INR (length l)) in *.
    assert (P1 : 1 <= P) by (apply pow_R1_Rle; lra). assert (N0 : 0 <= n) by apply pos_INR.
    assert (0 <= K * (n * P * eta)) by (apply Rmult_le_pos; [exact KP|]; apply Rmult_le_pos; [apply Rmult_le_pos|]; lra).
    assert (0 <= K * (P * eta)) by (apply Rmult_le_pos; [exact KP|]; apply Rmult_le_pos; lra).
    replace (P * (D + K * (L + D) + 3 * eta) + (P - 1) * L + 3 * n * P * eta) with ((1 + K) * P * D + ((1 + K) * P - 1) * L + 3 * (n + 1) * P * eta) by ring.
    replace (3 * (n + 1) * ((1 + K) * P) * eta) with (3 * (n + 1) * P * eta + 3 * (K * (n * P * eta)) + 3 * (K * (P * eta))) by ring. lra.
Qed.
End Chain.

(** ** No overflow *)
Lemma bp_pow (n : nat) : bpow radix2 (Z.of_nat n) = 2 ^ n.
Proof. rewrite bpow_powerRZ. cbn [radix_val radix2]. rewrite <- pow_powerRZ. reflexivity. Qed.
Section Bounded.
Context (cfg : Cfg) (TT : Trig f64) (d : R) (Hd : 0 <= d <= / 100) (GT : good_trig TT d).
Local Notation K := (2 * (d + 21 / 10 * uro)).
Lemma trig_ok (x : f64) (r : R) : fin x -> Rabs r <= 1 -> Rabs (val x - r) <= d -> okf 1 x.
Proof. intros F Hr H. split; [exact F|]. pose proof (abs_of_err _ _ _ _ Hr H). change (bpow radix2 1) with 2. lra. Qed.
Lemma turn_fin a (c s : f64) h i : okf 1 c -> okf 1 s -> (forall j, (j < 4)%nat -> okf 1010 (h i j)) -> forall j, (j < 4)%nat -> fin (turnF a c s h i j).
Proof.
  intros Hc Hs Hh j Hj.
  assert (X : okf 1010 (h i (ax1 a))) by (apply Hh; destruct a; cbn; lia).
  assert (Y : okf 1010 (h i (ax2 a))) by (apply Hh; destruct a; cbn; lia).
  destruct (okf_opp 1010 _ X) as (X' & _).
  assert (M : forall p q, okf 1010 p -> okf 1 q -> okf 1011 (p *' q)) by (intros p q Hp Hq; apply (okf_mult 1010 1 1011 p q Hp Hq eq_refl); lia).
  assert (P : forall p q, okf 1011 p -> okf 1011 q -> fin (p +' q)) by (intros p q Hp Hq; apply (okf_plus 1011 1012 p q Hp Hq eq_refl); lia).
  assert (Q : forall p q, okf 1011 p -> okf 1011 q -> fin (p -' q)) by (intros p q Hp Hq; apply (okf_minus 1011 1012 p q Hp Hq eq_refl); lia).
  unfold turnF. destruct (j =? ax1 a)%nat; [destruct a; first [apply P|apply Q]; apply M; assumption|].
  destruct (j =? ax2 a)%nat; [destruct a; apply P; apply M; assumption|]. apply Hh. exact Hj.
Qed.
Lemma rotate_all_fin : forall (l : list (axis * f64)) (m : list f64) h, repM 4 4 m h -> Forall (fun x => fin (snd x)) l ->
  exists r k, rotate_all m l = Ok r /\ repM 4 4 r k /\ forall i B, (i < 4)%nat ->
    (forall j, (j < 4)%nat -> fin (h i j)) -> lenR 4 (fun j => val (h i j)) <= B ->
    B * (1 + K) ^ length l + 3 * INR (length l) * (1 + K) ^ length l * eta <= bpow radix2 1010 ->
    forall j, (j < 4)%nat -> fin (k i j).
Proof.
  pose proof (K_pos d Hd) as KP. pose proof eta_pos as EP.
  induction l as [|[a t] l IH]; intros m h Hm HL.
  - exists m, h. split; [reflexivity|]. split; [exact Hm|]. intros i B Hi F _ _. exact F.
  - inversion HL as [|? ? Ft HL']; subst. cbn [snd] in Ft. destruct (GT t Ft) as (Fs & Fc & Es & Ec).
    destruct (rotate_about_F (cfg := cfg) (TT := TT) a m h t Hm) as (x & Ex & Hx). cbn [rotate_all]. rewrite Ex. cbn [bind].
    destruct (IH x _ Hx HL') as (r & k & Er & Hr & Kk). exists r, k. split; [exact Er|]. split; [exact Hr|]. intros i B Hi F HB HT.
    cbn [length] in HT. rewrite <- tech_pow_Rmult, S_INR in HT.
    set (P := (1 + K) ^ length l) in *. set (n := INR (length l)) in *.
    assert (P1 : 1 <= P) by (apply pow_R1_Rle; lra). assert (N0 : 0 <= n) by apply pos_INR.
    pose proof (lenR_nonneg 4 (fun j => val (h i j))) as L0.
    assert (G0 : 0 <= n * P * eta) by (apply Rmult_le_pos; [apply Rmult_le_pos|]; lra).
    assert (G1 : 0 <= P * eta) by (apply Rmult_le_pos; lra).
    assert (G2 : 0 <= K * (n * P * eta)) by (apply Rmult_le_pos; assumption).
    assert (G3 : 0 <= K * (P * eta)) by (apply Rmult_le_pos; assumption).
    assert (G4 : 0 <= K * (B * P)) by (apply Rmult_le_pos; [assumption|]; apply Rmult_le_pos; lra).
    assert (G5 : B <= B * P) by (rewrite <- (Rmult_1_r B) at 1; apply Rmult_le_compat_l; lra).
    replace (B * ((1 + K) * P) + 3 * (n + 1) * ((1 + K) * P) * eta) with
      (B * P + K * (B * P) + 3 * (n * P * eta) + 3 * (P * eta) + 3 * (K * (n * P * eta)) + 3 * (K * (P * eta))) in HT by ring.
    assert (FT : forall j, (j < 4)%nat -> fin (turnF a (scos t) (ssin t) h i j)).
    { apply turn_fin; [apply (trig_ok _ _ Fc (cos1 _) Ec)|apply (trig_ok _ _ Fs (sin1 _) Es)|]. intros j Hj. split; [apply F; exact Hj|].
      pose proof (lenR_ge 4 (fun j => val (h i j)) j Hj) as G. cbv beta in G. lra. }
    destruct (row_step d Hd (scos t) (ssin t) (val t) Ec Es a h i FT) as (_ & E0).
    apply (Kk i ((1 + K) * B + 3 * eta) Hi FT).
    + set (H := fun p => val (h i p)) in *.
      rewrite (lenR_ext 4 _ (fun j => rowR H (axis_rot a (val t)) j + (val (turnF a (scos t) (ssin t) h i j) - rowR H (axis_rot a (val t)) j))) by (intros; ring).
      eapply Rle_trans; [apply lenR_triangle|]. rewrite rowR_len.
      assert (K * lenR 4 H <= K * B) by (apply Rmult_le_compat_l; assumption). unfold H in *. lra.
    + replace (((1 + K) * B + 3 * eta) * P + 3 * n * P * eta) with (B * P + K * (B * P) + 3 * (P * eta) + 3 * (n * P * eta)) by ring. lra.
Qed.
End Bounded.

(** ** C173: rotate( angle, axis ) *)
Definition rotT (c s x y z : f64) (i j : nat) : f64 :=
  let k := f64_one -' c in
  nth j (nth i
    [[c +' k *' (x *' x); k *' x *' y -' s *' z; k *' x *' z +' s *' y; f64_zero];
     [k *' x *' y +' s *' z; c +' k *' (y *' y); k *' y *' z -' s *' x; f64_zero];
     [k *' x *' z -' s *' y; k *' y *' z +' s *' x; c +' k *' (z *' z); f64_zero];
     [f64_zero; f64_zero; f64_zero; f64_one]] []) f64_zero.
Lemma mat_rotate_F {cfg : Cfg} {TT : Trig f64} m t x y z : length m = 16%nat ->
  returns (mat_rotate m t [x; y; z]) (fun r => repM 4 4 r (rotT (scos t) (ssin t) x y z)).
Proof.
  intros Lm. destruct (mat_rep 4 4 m Lm) as (f & Hf). lit Hf. unfold mat_rotate. cbn -[b64_mult b64_plus b64_minus b64_opp f64_zero f64_one].
  apply returns_ok. exact (repM_44 (rotT (scos t) (ssin t) x y z)).
Qed.
Lemma ok1 (x : f64) : fin x -> Rabs (val x) <= 101 / 100 -> okf 1 x.
Proof. intros F H. split; [exact F|]. change (bpow radix2 1) with 2. lra. Qed.
Section Cells.
Context (c s x y z : f64) (t d : R) (Hd : 0 <= d <= / 100) (Fc : fin c) (Fs : fin s) (Fx : fin x) (Fy : fin y) (Fz : fin z).
Context (Hc : Rabs (val c - cos t) <= d) (Hs : Rabs (val s - sin t) <= d).
Context (Bx : Rabs (val x) <= 101 / 100) (By : Rabs (val y) <= 101 / 100) (Bz : Rabs (val z) <= 101 / 100).
Lemma k_ok : okf 2 (f64_one -' c) /\ Rabs (val (f64_one -' c) - (1 - val c)) <= uro * Rabs (1 - val c).
Proof.
  assert (O : okf 1 f64_one) by (apply ok1; [reflexivity|rewrite val_one, Rabs_R1; lra]).
  pose proof (okf_minus 1 2 f64_one c O (trig_ok d Hd _ _ Fc (cos1 t) Hc) eq_refl ltac:(lia)) as H. rewrite val_one in H. exact H.
Qed.
Lemma ee : 0 <= eta <= uro / 1000. Proof. pose proof eta_small. pose proof uro_small. lra. Qed.
Lemma diag_F w : fin w -> Rabs (val w) <= 101 / 100 ->
  fin (c +' (f64_one -' c) *' (w *' w)) /\
  Rabs (val (c +' (f64_one -' c) *' (w *' w)) - (cos t + (1 - cos t) * (val w * val w))) <= 3 * d + 16 * uro.
Proof.
  intros Fw Bw. destruct k_ok as (K & EK). pose proof (ok1 w Fw Bw) as W. pose proof (trig_ok d Hd _ _ Fc (cos1 t) Hc) as C.
  destruct (okf_mult 1 1 2 w w W W eq_refl ltac:(lia)) as (Q & EQ).
  destruct (okf_mult 2 2 4 _ _ K Q eq_refl ltac:(lia)) as (P & EP).
  destruct (okf_plus 4 5 c _ (okf_le 1 4 _ C ltac:(lia)) P eq_refl ltac:(lia)) as (R0 & ER). split; [apply R0|].
  exact (cell_diag uro eta d (cos t) (val c) _ uro_small ee Hd (cos1 t) Hc EK (val w) _ _ _ Bw EQ EP ER).
Qed.
Lemma off_F a b w : fin a -> fin b -> fin w -> Rabs (val a) <= 101 / 100 -> Rabs (val b) <= 101 / 100 -> Rabs (val w) <= 101 / 100 ->
  (fin ((f64_one -' c) *' a *' b +' s *' w) /\
   Rabs (val ((f64_one -' c) *' a *' b +' s *' w) - ((1 - cos t) * val a * val b + sin t * val w)) <= 3 * d + 16 * uro) /\
  (fin ((f64_one -' c) *' a *' b -' s *' w) /\
   Rabs (val ((f64_one -' c) *' a *' b -' s *' w) - ((1 - cos t) * val a * val b - sin t * val w)) <= 3 * d + 16 * uro).
Proof.
  intros Fa Fb Fw Ba Bb Bw. destruct k_ok as (K & EK). pose proof (trig_ok d Hd _ _ Fs (sin1 t) Hs) as S1.
  destruct (okf_mult 2 1 3 _ _ K (ok1 a Fa Ba) eq_refl ltac:(lia)) as (Q & EQ).
  destruct (okf_mult 3 1 4 _ _ Q (ok1 b Fb Bb) eq_refl ltac:(lia)) as (P & EP).
  destruct (okf_mult 1 1 2 _ _ S1 (ok1 w Fw Bw) eq_refl ltac:(lia)) as (W & EW). apply (okf_le 2 4) in W; [|lia].
  destruct (okf_plus 4 5 _ _ P W eq_refl ltac:(lia)) as (R1 & E1). destruct (okf_minus 4 5 _ _ P W eq_refl ltac:(lia)) as (R2 & E2).
  destruct (cell_off uro eta d (cos t) (sin t) (val c) (val s) _ uro_small ee Hd (cos1 t) (sin1 t) Hc Hs EK (val a) (val b) (val w) _ _ _ (val ((f64_one -' c) *' a *' b +' s *' w)) Ba Bb Bw EQ EP EW) as (G1 & _).
  destruct (cell_off uro eta d (cos t) (sin t) (val c) (val s) _ uro_small ee Hd (cos1 t) (sin1 t) Hc Hs EK (val a) (val b) (val w) _ _ _ (val ((f64_one -' c) *' a *' b -' s *' w)) Ba Bb Bw EQ EP EW) as (_ & G2).
  split; (split; [first [apply R1|apply R2]|]); [apply G1; exact E1|apply G2; exact E2].
Qed.
Lemma rotT_F i j : (i < 3)%nat -> (j < 3)%nat -> fin (rotT c s x y z i j) /\
  Rabs (val (rotT c s x y z i j) - rotF (val x, val y, val z) t i j) <= 3 * d + 16 * uro.
Proof.
  intros Hi Hj.
  destruct i as [|[|[|i]]]; [| | |lia]; (destruct j as [|[|[|j]]]; [| | |lia]); cbn [rotT rotF nth];
    first [apply diag_F; assumption|apply off_F; assumption].
Qed.
End Cells.

Theorem C173_rotate :
  forall (cfg : Cfg) (TT : Trig f64) (d e : R) (m : list f64) (t x y z : f64),
  0 <= d <= / 100 -> good_trig TT d -> length m = 16%nat -> fin t -> fin x -> fin y -> fin z ->
  let k := (val x, val y, val z) in
  Rabs (len3R k - 1) <= e -> e <= / 100 ->
  exists r A, mat_rotate m t [x; y; z] = Ok r /\ length r = 16%nat /\ (forall x, In x r -> fin x) /\
  (* the upper left block: the rotation about the direction of the axis *)
  (forall p, mv3R A p = rodrigues (scale3 (/ len3R k) k) (val t) p) /\
  (forall i j, (i < 3)%nat -> (j < 3)%nat -> Rabs (mcells 4 r i j - A i j) <= 3 * d + 6 * e + 16 / 2 ^ 53) /\
  (forall i, (i < 4)%nat -> mcells 4 r i 3 = idR i 3 /\ mcells 4 r 3 i = idR 3 i).
Proof.
  intros cfg TT d e m t x y z Hd GT Lm Ft Fx Fy Fz k HL He. destruct (GT t Ft) as (Fs & Fc & Es & Ec).
  destruct (mat_rotate_F (cfg := cfg) (TT := TT) m t x y z Lm) as (r & Er & Hr).
  set (L := len3R k) in *. set (q := scale3 (/ L) k).
  assert (LP : 99 / 100 <= L <= 101 / 100) by (apply abs_le_inv in HL; lra).
  assert (LL : L * L = val x * val x + val y * val y + val z * val z).
  { unfold L, len3R. rewrite sqrt_sqrt; [reflexivity|]. unfold k, dot3. pose proof (Rle_0_sqr (val x)). pose proof (Rle_0_sqr (val y)). pose proof (Rle_0_sqr (val z)). unfold Rsqr in *. lra. }
  destruct (comp_bound (val x) (val y) (val z) L LP LL) as (Bx & By & Bz).
  assert (QE : q = (val x / L, val y / L, val z / L)) by (unfold q, k, scale3, Rdiv; rewrite !(Rmult_comm (/ L)); reflexivity).
  assert (C : forall i j, (i < 3)%nat -> (j < 3)%nat -> fin (rotT (scos t) (ssin t) x y z i j) /\ Rabs (val (rotT (scos t) (ssin t) x y z i j) - rotF q (val t) i j) <= 3 * d + 6 * e + 16 * uro).
  { intros i j Hi Hj. destruct (rotT_F (scos t) (ssin t) x y z (val t) d Hd Fc Fs Fx Fy Fz Ec Es ltac:(lra) ltac:(lra) ltac:(lra) i j Hi Hj) as (F & E). split; [exact F|].
    pose proof (rot_unit_err (val x) (val y) (val z) L e LP LL HL He (val t) i j Hi Hj) as E2. rewrite QE.
    match goal with |- Rabs (?a - ?b) <= _ => replace (a - b) with ((a - rotF k (val t) i j) + (rotF k (val t) i j - b)) by ring end.
    eapply Rle_trans; [apply tri; [exact E|exact E2]|]. lra. }
  exists r, (rotF q (val t)). split; [exact Er|]. split; [apply Hr|]. split; [|split; [|split]].
  - apply (cells_all 4 r (proj1 Hr)). intros i j Hi Hj. rewrite (nth_error_nth r (j * 4 + i) f64_zero (proj2 Hr i j Hi Hj)).
    destruct (Nat.eq_dec i 3) as [->|Ni]; [cell4 j Hj; reflexivity|]. destruct (Nat.eq_dec j 3) as [->|Nj]; [cell4 i Hi; reflexivity|].
    apply C; lia.
  - intros [[a b] w]. change (scale3 (/ L) k) with q. rewrite QE. unfold mv3R, rodrigues, cross3, scale3, add3, dot3. cbn [rotF nth].
    f_equal; [f_equal|]; ring.
  - intros i j Hi Hj. rewrite (rep_mcells 4 r _ Hr i j ltac:(lia) ltac:(lia)). unfold Rdiv. fold uro. apply C; assumption.
  - intros i Hi. rewrite (rep_mcells 4 r _ Hr i 3 Hi ltac:(lia)), (rep_mcells 4 r _ Hr 3 i ltac:(lia) Hi).
    assert (Z : val f64_zero = 0) by reflexivity.
    cell4 i Hi; cbn [rotT nth]; rewrite ?val_one, ?Z; unfold idR; cbn; split; reflexivity.
Qed.
Print Assumptions C173_rotate.

(** C174. *)
Theorem C174_rotation_chain :
  forall (cfg : Cfg) (TT : Trig f64) (d : R) (m : list f64) (l : list (axis * f64)),
  0 <= d <= / 100 -> good_trig TT d -> length m = 16%nat -> Forall (fun x => fin (snd x)) l ->
  exists r, rotate_all m l = Ok r /\ length r = 16%nat /\
  ((forall x, In x r -> fin x) ->
   (forall x, In x m -> fin x) /\
   let K := 2 * d + 42 / 10 / 2 ^ 53 in
   let n := length l in
   (* the exact product of the start with the exact rotations *)
   let X := turned (mcells 4 m) (angles l) in
   forall i, (i < 4)%nat ->
     lenR 4 (X i) = lenR 4 (mcells 4 m i) /\
     lenR 4 (fun j => mcells 4 r i j - X i j) <=
       ((1 + K) ^ n - 1) * lenR 4 (mcells 4 m i) + 3 * INR n * (1 + K) ^ n / 2 ^ 1075).
Proof.
  intros cfg TT d m l Hd GT Lm HL. pose proof (repM_nth 4 4 m f64_zero Lm) as Hm.
  destruct (rotate_all_spec cfg TT d Hd GT l m _ Hm HL) as (r & k & Er & Hr & S). exists r. split; [exact Er|]. split; [apply Hr|]. intros F.
  assert (FK : forall i j, (i < 4)%nat -> (j < 4)%nat -> fin (k i j)).
  { intros i j Hi Hj. apply F. apply (nth_error_In r (j * 4 + i)). apply Hr; assumption. }
  split.
  { apply (cells_all 4 m Lm). intros i j Hi Hj. destruct (S i Hi (fun j Hj => FK i j Hi Hj)) as (F0 & _). apply F0; exact Hj. }
  intros K n X i Hi. destruct (S i Hi (fun j Hj => FK i j Hi Hj)) as (_ & S1).
  assert (XR : X i = turned_row (mcells 4 m i) (angles l)) by apply turned_is_row.
  split; [rewrite XR; apply turned_row_len|].
  assert (KE : K = 2 * (d + 21 / 10 * uro)) by (unfold K, uro; field; apply pow_nonzero; lra).
  rewrite (lenR_ext 4 _ (fun j => val (k i j) - turned_row (mcells 4 m i) (angles l) j)) by (intros j Hj; rewrite (rep_mcells 4 r k Hr i j Hi Hj), XR; reflexivity).
  pose proof (S1 (mcells 4 m i) (lenR 4 (mcells 4 m i)) 0 (Rle_refl _)) as S2. rewrite <- KE in S2.
  eapply Rle_trans; [apply S2|].
  - rewrite (lenR_ext 4 _ (fun _ => 0 * 0)).
    + rewrite (lenR_scal 4 0 (fun _ => 0)), Rabs_R0. lra.
    + intros j Hj. change (val (nth (j * 4 + i) m f64_zero)) with (mcells 4 m i j). ring.
  - unfold Rdiv. fold eta. fold n. lra.
Qed.
Print Assumptions C174_rotation_chain.

(** For cells up to 2^1000 and up to 1 / (2 K) rotations there is no overflow
    and the drift is linear. *)
Theorem C174_no_overflow :
  forall (cfg : Cfg) (TT : Trig f64) (d : R) (m : list f64) (l : list (axis * f64)),
  0 <= d <= / 100 -> good_trig TT d -> length m = 16%nat -> Forall (fun x => fin (snd x)) l ->
  (forall x, In x m -> fin x /\ Rabs (val x) <= 2 ^ 1000) ->
  let K := 2 * d + 42 / 10 / 2 ^ 53 in
  let n := length l in
  2 * INR n * K <= 1 ->
  exists r, rotate_all m l = Ok r /\ length r = 16%nat /\ (forall x, In x r -> fin x) /\
  forall i, (i < 4)%nat ->
    lenR 4 (fun j => mcells 4 r i j - turned (mcells 4 m) (angles l) i j) <=
      2 * INR n * K * lenR 4 (mcells 4 m i) + 6 * INR n / 2 ^ 1075.
Proof.
  intros cfg TT d m l Hd GT Lm HL HB K n HK. pose proof (repM_nth 4 4 m f64_zero Lm) as Hm.
  assert (KE : K = 2 * (d + 21 / 10 * uro)) by (unfold K, uro; field; apply pow_nonzero; lra).
  pose proof (K_pos d Hd) as KP. rewrite <- KE in KP. pose proof (pos_INR n) as N0. pose proof eta_pos as EP.
  pose proof (pow_bern K n KP HK) as PB. fold n in PB.
  assert (P1 : 1 <= (1 + K) ^ n) by (apply pow_R1_Rle; lra).
  assert (P2 : (1 + K) ^ n <= 1 + 2 * INR n * K) by lra.
  destruct (rotate_all_fin cfg TT d Hd GT l m _ Hm HL) as (r & k & Er & Hr & S). rewrite <- KE in S.
  assert (FK : forall i j, (i < 4)%nat -> (j < 4)%nat -> fin (k i j)).
  { intros i j Hi Hj. apply (S i (4 * 2 ^ 1000) Hi); [| | |exact Hj].
    - intros q Hq. apply HB. apply nth_In. lia.
    - eapply Rle_trans; [apply (lenR_le 4 _ (fun _ => 2 ^ 1000))|].
      + intros q Hq. apply HB. apply nth_In. lia.
      + eapply Rle_trans; [apply (lenR_const 4 (2 ^ 1000)); apply pow_le; lra|]. cbn [INR]. lra.
    - fold n. assert (NE : INR n * eta <= 1).
      { assert (U : uro <= K) by (rewrite KE; pose proof uro_small; lra). pose proof eta_small as ES. pose proof uro_small as US.
        assert (INR n * eta <= INR n * K) by (apply Rmult_le_compat_l; lra). lra. }
      replace (bpow radix2 1010) with (1024 * 2 ^ 1000) by (replace 1024 with (2 ^ 10) by lra; rewrite <- pow_add; exact (eq_sym (bp_pow 1010))).
      assert (B1 : 1 <= 2 ^ 1000) by (apply pow_R1_Rle; lra). set (B := 2 ^ 1000) in *. set (P := (1 + K) ^ n) in *.
      assert (4 * B * P <= 4 * B * 2) by (apply Rmult_le_compat_l; lra).
      assert (P * (INR n * eta) <= 2 * 1) by (apply Rmult_le_compat; try lra; apply Rmult_le_pos; lra).
      replace (3 * INR n * P * eta) with (3 * (P * (INR n * eta))) by ring. lra. }
  destruct (C174_rotation_chain cfg TT d m l Hd GT Lm HL) as (r' & Er' & Lr & C). rewrite Er in Er'. injection Er' as <-.
  exists r. split; [exact Er|]. split; [exact Lr|].
  assert (FR : forall x, In x r -> fin x).
  { apply (cells_all 4 r Lr). intros i j Hi Hj. destruct Hr as (_ & Hr). rewrite (nth_error_nth r (j * 4 + i) f64_zero (Hr i j Hi Hj)). apply FK; assumption. }
  split; [exact FR|]. intros i Hi. destruct (C FR) as (_ & C1). destruct (C1 i Hi) as (_ & C2). fold K n in C2.
  eapply Rle_trans; [exact C2|]. pose proof (lenR_nonneg 4 (mcells 4 m i)) as L0. set (L := lenR 4 (mcells 4 m i)) in *.
  unfold Rdiv. fold eta. set (P := (1 + K) ^ n) in *.
  assert ((P - 1) * L <= 2 * INR n * K * L) by (apply Rmult_le_compat_r; lra).
  assert (INR n * eta * P <= INR n * eta * 2) by (apply Rmult_le_compat_l; [apply Rmult_le_pos; lra|lra]). lra.
Qed.
Print Assumptions C174_no_overflow.

(** Orthonormal rows stay orthonormal up to the drift. *)
Theorem C174_orthonormal :
  forall (cfg : Cfg) (TT : Trig f64) (d : R) (m : list f64) (l : list (axis * f64)),
  0 <= d <= / 100 -> good_trig TT d -> length m = 16%nat -> Forall (fun x => fin (snd x)) l ->
  (forall x, In x m -> fin x) ->
  (forall i j, (i < 4)%nat -> (j < 4)%nat -> dotR 4 (mcells 4 m i) (mcells 4 m j) = if (i =? j)%nat then 1 else 0) ->
  let K := 2 * d + 42 / 10 / 2 ^ 53 in
  let n := length l in
  2 * INR n * K <= 1 ->
  exists r, rotate_all m l = Ok r /\ length r = 16%nat /\ (forall x, In x r -> fin x) /\
  let E := 2 * INR n * K + 6 * INR n / 2 ^ 1075 in
  forall i j, (i < 4)%nat -> (j < 4)%nat ->
    Rabs (dotR 4 (mcells 4 r i) (mcells 4 r j) - (if (i =? j)%nat then 1 else 0)) <= 2 * E + E * E.
Proof.
  intros cfg TT d m l Hd GT Lm HL HF HO K n HK.
  assert (L1 : forall i, (i < 4)%nat -> lenR 4 (mcells 4 m i) = 1).
  { intros i Hi. unfold lenR. rewrite (HO i i Hi Hi), Nat.eqb_refl. apply sqrt_1. }
  destruct (C174_no_overflow cfg TT d m l Hd GT Lm HL) as (r & Er & Lr & Fr & C).
  - intros x Hx. split; [apply HF; exact Hx|]. apply (In_nth _ _ f64_zero) in Hx. destruct Hx as (p & Hp & <-). rewrite Lm in Hp.
    assert (H4 : (p mod 4 < 4)%nat) by (apply Nat.mod_upper_bound; lia).
    assert (H5 : (p / 4 < 4)%nat) by (apply Nat.div_lt_upper_bound; lia).
    pose proof (lenR_ge 4 (mcells 4 m (p mod 4)%nat) (p / 4)%nat H5) as G. rewrite (L1 _ H4) in G.
    unfold mcells in G. replace (p / 4 * 4 + p mod 4)%nat with p in G by (pose proof (Nat.div_mod p 4 ltac:(lia)); lia).
    eapply Rle_trans; [exact G|]. apply pow_R1_Rle. lra.
  - exact HK.
  - exists r. split; [exact Er|]. split; [exact Lr|]. split; [exact Fr|]. intros E i j Hi Hj. fold K n in C.
    assert (E0 : 0 <= E).
    { unfold E. pose proof (pos_INR n) as N0. pose proof (K_pos d Hd) as KP. assert (KE : K = 2 * (d + 21 / 10 * uro)) by (unfold K, uro; field; apply pow_nonzero; lra).
      rewrite <- KE in KP. assert (0 <= INR n * K) by (apply Rmult_le_pos; assumption).
      unfold Rdiv. fold eta. pose proof eta_pos. assert (0 <= INR n * eta) by (apply Rmult_le_pos; lra). lra. }
    set (X := turned (mcells 4 m) (angles l)) in *.
    assert (XO : dotR 4 (X i) (X j) = if (i =? j)%nat then 1 else 0).
    { unfold X. rewrite !turned_is_row. rewrite turned_row_dot. apply HO; assumption. }
    assert (XL : forall p, (p < 4)%nat -> lenR 4 (X p) = 1) by (intros p Hp; unfold X; rewrite turned_is_row, turned_row_len; apply L1; exact Hp).
    assert (EL : forall p, (p < 4)%nat -> lenR 4 (fun q => mcells 4 r p q - X p q) <= E).
    { intros p Hp. eapply Rle_trans; [apply (C p Hp)|]. rewrite (L1 p Hp). unfold E. lra. }
    rewrite <- XO. set (e := fun p q => mcells 4 r p q - X p q) in *.
    replace (dotR 4 (mcells 4 r i) (mcells 4 r j) - dotR 4 (X i) (X j)) with (dotR 4 (X i) (e j) + dotR 4 (e i) (X j) + dotR 4 (e i) (e j))
      by (rewrite !dot4; unfold e; ring).
    pose proof (lenR_cs 4 (X i) (e j)) as C1. pose proof (lenR_cs 4 (e i) (X j)) as C2. pose proof (lenR_cs 4 (e i) (e j)) as C3.
    rewrite (XL i Hi) in C1. rewrite (XL j Hj) in C2. pose proof (EL i Hi) as Ei. pose proof (EL j Hj) as Ej.
    change (fun q => mcells 4 r i q - X i q) with (e i) in Ei. change (fun q => mcells 4 r j q - X j q) with (e j) in Ej.
    assert (lenR 4 (e i) * lenR 4 (e j) <= E * E) by (apply Rmult_le_compat; try apply lenR_nonneg; assumption).
    eapply Rle_trans; [apply tri; [apply tri|]; [exact C1|exact C2|exact C3]|]. lra.
Qed.
Print Assumptions C174_orthonormal.

(** ** The hypotheses can be met: a correctly truncated sin and cos *)
Definition grid (x : R) : f64 := binary_normalize 53 1024 eq_refl eq_refl mode_NE (ZnearestE (x * bpow radix2 52)) (-52) false.
Definition grid_trig : Trig f64 := {| ssin := fun t => grid (sin (val t)); scos := fun t => grid (cos (val t)); stan := fun t => t |}.
Lemma grid_ok x : Rabs x <= 1 -> fin (grid x) /\ Rabs (val (grid x) - x) <= / 2 ^ 52.
Proof.
  intros Hx. set (n := ZnearestE (x * bpow radix2 52)).
  assert (B52 : bpow radix2 52 = 2 ^ 52) by exact (bp_pow 52).
  assert (P52 : 0 < 2 ^ 52) by (apply pow_lt; lra).
  assert (HN : Rabs (IZR n - x * 2 ^ 52) <= / 2).
  { unfold n. rewrite B52, Rabs_minus_sym. apply (Znearest_half (fun x => negb (Z.even x))). }
  assert (V : F2R (Float radix2 n (-52)) = IZR n / 2 ^ 52).
  { unfold F2R. cbn [Fnum Fexp]. change (-52)%Z with (Z.opp 52). rewrite (bpow_opp radix2 52), B52. reflexivity. }
  assert (XB : Rabs (x * 2 ^ 52) <= 2 ^ 52) by (rewrite Rabs_mult, (Rabs_pos_eq (2 ^ 52)) by lra; rewrite <- (Rmult_1_l (2 ^ 52)) at 2; apply Rmult_le_compat_r; lra).
  assert (NB : Rabs (IZR n) <= 2 ^ 52 + / 2) by (pose proof (abs_of_err _ _ _ _ XB HN); lra).
  assert (G : generic_format radix2 (FLT_exp (-1074) 53) (F2R (Float radix2 n (-52)))).
  { apply generic_format_FLT. exists (Float radix2 n (-52)); [reflexivity| |cbn; lia]. cbn [Fnum].
    apply lt_IZR. rewrite abs_IZR. replace (IZR (radix2 ^ 53)) with (2 * 2 ^ 52) by (replace (2 * 2 ^ 52) with (2 ^ 53) by (rewrite <- tech_pow_Rmult; ring); rewrite <- (bp_pow 53), <- IZR_Zpower by lia; reflexivity).
    assert (1 <= 2 ^ 52) by (apply pow_R1_Rle; lra). lra. }
  pose proof (binary_normalize_correct 53 1024 eq_refl eq_refl mode_NE n (-52) false) as C. cbv zeta in C.
  change (SpecFloat.fexp 53 1024) with (FLT_exp (-1074) 53) in C. cbn [round_mode] in C. rewrite (round_generic radix2 (FLT_exp (-1074) 53) ZnearestE _ G) in C.
  rewrite Rlt_bool_true in C.
  - destruct C as (C1 & C2 & _). change (binary_normalize 53 1024 eq_refl eq_refl mode_NE n (-52) false) with (grid x) in *. split; [exact C2|].
    unfold val. rewrite C1, V. replace (IZR n / 2 ^ 52 - x) with ((IZR n - x * 2 ^ 52) * / 2 ^ 52) by (field; lra).
    rewrite Rabs_mult, (Rabs_pos_eq (/ 2 ^ 52)) by (left; apply Rinv_0_lt_compat; exact P52).
    rewrite <- (Rmult_1_l (/ 2 ^ 52)) at 2. apply Rmult_le_compat_r; [left; apply Rinv_0_lt_compat; exact P52|lra].
  - rewrite V. apply Rle_lt_trans with 2; [|change 2 with (bpow radix2 1); apply bpow_lt; lia].
    unfold Rdiv. rewrite Rabs_mult, (Rabs_pos_eq (/ 2 ^ 52)) by (left; apply Rinv_0_lt_compat; exact P52).
    apply (Rmult_le_reg_r (2 ^ 52)); [exact P52|]. rewrite Rmult_assoc, Rinv_l by lra.
    assert (1 <= 2 ^ 52) by (apply pow_R1_Rle; lra). lra.
Qed.
Lemma grid_trig_good : good_trig grid_trig (/ 2 ^ 52).
Proof. intros t _. cbn [ssin scos grid_trig]. destruct (grid_ok (sin (val t)) (sin1 _)) as (A & B). destruct (grid_ok (cos (val t)) (cos1 _)) as (A' & B'). tauto. Qed.

Example C173_hypotheses_met :
  good_trig grid_trig (/ 2 ^ 52) /\ 0 <= / 2 ^ 52 <= / 100 /\ fin f64_two /\ fin f64_one /\ fin f64_zero /\
  Rabs (len3R (val f64_zero, val f64_one, val f64_zero) - 1) <= 0.
Proof.
  split; [exact grid_trig_good|]. split; [lra|]. repeat (split; [reflexivity|]).
  assert (Z : val f64_zero = 0) by reflexivity. rewrite val_one, Z. unfold len3R, dot3. replace (0 * 0 + 1 * 1 + 0 * 0) with 1 by ring. rewrite sqrt_1, Rminus_diag_eq, Rabs_R0 by reflexivity. lra.
Qed.
Definition id64 : list f64 := map (fun k => if (k mod 5 =? 0)%nat then f64_one else f64_zero) (seq 0 16).
Example C174_hypotheses_met :
  let l := repeat (AX, f64_one) 1000 ++ repeat (AZ, f64_two) 1000 in
  good_trig grid_trig (/ 2 ^ 52) /\ length id64 = 16%nat /\ Forall (fun x => fin (snd x)) l /\ (forall x, In x id64 -> fin x) /\
  (forall i j, (i < 4)%nat -> (j < 4)%nat -> dotR 4 (mcells 4 id64 i) (mcells 4 id64 j) = if (i =? j)%nat then 1 else 0) /\
  2 * INR (length l) * (2 * / 2 ^ 52 + 42 / 10 / 2 ^ 53) <= 1.
Proof.
  intros l. split; [exact grid_trig_good|]. split; [reflexivity|]. split; [|split; [|split]].
  - apply Forall_app. split; apply Forall_forall; intros x Hx; apply repeat_spec in Hx; subst x; reflexivity.
  - intros x Hx. cbn in Hx. repeat (destruct Hx as [<-|Hx]; [reflexivity|]). destruct Hx.
  - assert (Z : val f64_zero = 0) by reflexivity.
    intros i j Hi Hj. rewrite dot4. cell4 i Hi; cell4 j Hj; cbn -[f64_one f64_zero val IZR Rmult Rplus]; unfold mcells; cbn -[f64_one f64_zero val IZR Rmult Rplus]; rewrite ?val_one, ?Z; ring.
  - unfold l. rewrite app_length, !repeat_length. rewrite INR_IZR_INZ. change (Z.of_nat (1000 + 1000)) with 2000%Z. lra.
Qed.
