(** Real lemmas for C232-C235: affine and rigid histories. *)
From Coq Require Import Reals Lra Lia List.
From Verif Require Import Spec Spec4 Spec12 Spec13 Spec14 Spec17 Spec20 LSum LEdit LScreen.
Local Open Scope R_scope.

Lemma sc1' t : sin t * sin t + cos t * cos t = 1.
Proof. pose proof (sin2_cos2 t) as H. unfold Rsqr in H. exact H. Qed.
Lemma rot_iso a t : isoR (axis_rot a t).
Proof.
  intros u. unfold lenR, dotR. f_equal. unfold linR. pose proof (sc1' t) as E. destruct a; cbn [rsum axis_rot nth]; generalize dependent (sin t); generalize dependent (cos t); intros c s E.
  - transitivity (u 0%nat * u 0%nat + (s * s + c * c) * (u 1%nat * u 1%nat + u 2%nat * u 2%nat)); [ring|rewrite E; ring].
  - transitivity (u 1%nat * u 1%nat + (s * s + c * c) * (u 0%nat * u 0%nat + u 2%nat * u 2%nat)); [ring|rewrite E; ring].
  - transitivity (u 2%nat * u 2%nat + (s * s + c * c) * (u 0%nat * u 0%nat + u 1%nat * u 1%nat)); [ring|rewrite E; ring].
Qed.
Lemma rot_edge a t i : (i < 3)%nat -> axis_rot a t 3 i = 0 /\ axis_rot a t i 3 = 0.
Proof. intros Hi. destruct a; destruct i as [|[|[|i]]]; try lia; split; reflexivity. Qed.
Lemma move_iso x A : isoR A -> isoR (moveR x A).
Proof.
  intros HA u. destruct x as [[p a] t]. destruct p; cbn [moveR].
  - transitivity (lenR 3 (linR (axis_rot a (- t)) (linR A u))); [|rewrite rot_iso; apply HA].
    apply lenR_ext. intros i Hi. unfold linR, mmulR. destruct (rot_edge a (- t) i Hi) as (_ & Z). cbn [rsum]. rewrite Z. ring.
  - transitivity (lenR 3 (linR A (linR (axis_rot a t) u))); [|rewrite HA; apply rot_iso].
    apply lenR_ext. intros i Hi. unfold linR, mmulR. destruct (rot_edge a t 0%nat ltac:(lia)) as (Z0 & _). destruct (rot_edge a t 1%nat ltac:(lia)) as (Z1 & _). destruct (rot_edge a t 2%nat ltac:(lia)) as (Z2 & _).
    cbn [rsum]. rewrite Z0, Z1, Z2. ring.
Qed.
Lemma call_iso e A : rigid_call e -> isoR A -> isoR (editedR e A).
Proof.
  intros He HA. destruct e as [x|s|s|s|b|b]; cbn [rigid_call] in He; try contradiction.
  - apply move_iso, HA.
  - intros u. rewrite <- (HA u). apply lenR_ext. intros i Hi. unfold linR. cbn [rsum editedR Nat.eqb andb]. ring.
  - intros u. rewrite <- (HA u). apply lenR_ext. intros i Hi. unfold linR. cbn [rsum editedR Nat.eqb andb]. ring.
Qed.
Lemma history_iso : forall l A, Forall rigid_call l -> isoR A -> isoR (historyR l A).
Proof.
  induction l as [|e l IH]; intros A HL HA; [exact HA|]. unfold historyR in *. cbn [fold_left]. apply IH; [exact (Forall_inv_tail HL)|]. apply call_iso; [exact (Forall_inv HL)|exact HA].
Qed.
Lemma iso_dist A v w : isoR A -> gapR (homR 3 A v) (homR 3 A w) = gapR v w.
Proof.
  intros HA. unfold gapR. rewrite <- (HA (fun i => v i - w i)). apply lenR_ext. intros i Hi. unfold linR, homR, mvecR, hom1. cbn [rsum Nat.add Nat.ltb Nat.leb]. ring.
Qed.
Lemma lenR_small (f : nat -> R) b : 0 <= b -> (forall i, (i < 3)%nat -> Rabs (f i) <= b) -> lenR 3 f <= 2 * b.
Proof.
  intros Hb H. unfold lenR, dotR. rewrite <- (sqrt_square (2 * b)) by lra. apply sqrt_le_1_alt. cbn [rsum].
  assert (Q : forall i, (i < 3)%nat -> f i * f i <= b * b). { intros i Hi. rewrite <- (Rabs_pos_eq (f i * f i)) by (apply Rle_0_sqr). rewrite Rabs_mult. apply Rmult_le_compat; try apply Rabs_pos; apply H; exact Hi. }
  pose proof (Q 0%nat ltac:(lia)). pose proof (Q 1%nat ltac:(lia)). pose proof (Q 2%nat ltac:(lia)). pose proof (Rle_0_sqr b) as S0. unfold Rsqr in S0. lra.
Qed.
Lemma dist_err (a b x y : nat -> R) da db : 0 <= da -> 0 <= db -> (forall i, (i < 3)%nat -> Rabs (a i - x i) <= da) -> (forall i, (i < 3)%nat -> Rabs (b i - y i) <= db) ->
  Rabs (gapR a b - gapR x y) <= 2 * (da + db).
Proof.
  intros A0 B0 HA HB. unfold gapR.
  assert (H : forall i, (i < 3)%nat -> Rabs ((a i - b i) - (x i - y i)) <= da + db).
  { intros i Hi. pose proof (Rabs_triang (a i - x i) (- (b i - y i))) as T. rewrite Rabs_Ropp in T. replace (a i - x i + - (b i - y i)) with (a i - b i - (x i - y i)) in T by ring. pose proof (HA i Hi). pose proof (HB i Hi). lra. }
  pose proof (lenR_small (fun i => (a i - b i) - (x i - y i)) (da + db) ltac:(lra) H) as L.
  assert (L' : lenR 3 (fun i => (x i - y i) - (a i - b i)) <= 2 * (da + db)). { apply lenR_small; [lra|]. intros i Hi. rewrite Rabs_minus_sym. apply H. exact Hi. }
  pose proof (lenR_triangle 3 (fun i => x i - y i) (fun i => (a i - b i) - (x i - y i))) as T1. cbv beta in T1. rewrite (lenR_ext 3 (fun i => x i - y i + (a i - b i - (x i - y i))) (fun i => a i - b i)) in T1 by (intros; ring).
  pose proof (lenR_triangle 3 (fun i => a i - b i) (fun i => (x i - y i) - (a i - b i))) as T2. cbv beta in T2. rewrite (lenR_ext 3 (fun i => a i - b i + (x i - y i - (a i - b i))) (fun i => x i - y i)) in T2 by (intros; ring).
  apply Rabs_le. lra.
Qed.
(** The error of the homogeneous transform when w is 1. *)
Lemma hom_one u t H h E Ew r :
  0 < u <= / 100000 -> 0 < t -> t <= u * / 1000 -> 2 <= H -> Rabs h <= H -> 0 <= E <= 9 / 2 * u * H + 4 * t -> 0 <= Ew <= 9 / 2 * u + 4 * t ->
  Rabs (r - h / 1) <= (1 + u) * (2 * (E + Rabs (h / 1) * Ew) / Rabs 1) + u * Rabs (h / 1) + t -> Rabs (r - h) <= 20 * (u * H).
Proof.
  intros Hu Ht Htu HH Hh HE HEw. replace (h / 1) with h by field. rewrite Rabs_R1. unfold Rdiv. rewrite Rinv_1, Rmult_1_r. intros B.
  set (a := Rabs h) in *. assert (A0 : 0 <= a) by (unfold a; apply Rabs_pos). set (y := u * H). assert (Y : 2 * u <= y) by (unfold y; rewrite (Rmult_comm 2); apply Rmult_le_compat_l; lra).
  assert (P1 : a * Ew <= H * (9 / 2 * u + 4 * t)) by (apply Rmult_le_compat; lra).
  assert (P2 : H * (9 / 2 * u + 4 * t) <= 4504 / 1000 * y). { unfold y. replace (4504 / 1000 * (u * H)) with (H * (4504 / 1000 * u)) by ring. apply Rmult_le_compat_l; lra. }
  assert (P3 : u * a <= y) by (unfold y; apply Rmult_le_compat_l; lra).
  assert (P4 : 9 / 2 * u * H = 9 / 2 * y) by (unfold y; ring). rewrite P4 in HE.
  set (q := 2 * (E + a * Ew)) in *. assert (Q : q <= 18012 / 1000 * y) by (unfold q; lra).
  assert (Q0 : 0 <= q) by (unfold q; assert (0 <= a * Ew) by (apply Rmult_le_pos; lra); lra).
  assert ((1 + u) * q <= (1 + / 100000) * q) by (apply Rmult_le_compat_r; lra). lra.
Qed.
