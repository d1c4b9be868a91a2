(** Finite sums of reals, Cauchy-Schwarz. *)
From Verif Require Export Spec.
Local Open Scope R_scope.

Lemma rsum_ext n f g : (forall i, (i < n)%nat -> f i = g i) -> rsum n f = rsum n g.
Proof.
  induction n as [|n IH]; intros H; cbn [rsum]; auto.
  rewrite IH, H by (auto; intros; apply H; lia). reflexivity.
Qed.

Lemma rsum_plus n f g : rsum n (fun i => f i + g i) = rsum n f + rsum n g.
Proof. induction n as [|n IH]; cbn [rsum]; [lra|]. rewrite IH; lra. Qed.

Lemma rsum_minus n f g : rsum n (fun i => f i - g i) = rsum n f - rsum n g.
Proof. induction n as [|n IH]; cbn [rsum]; [lra|]. rewrite IH; lra. Qed.

Lemma rsum_opp n f : rsum n (fun i => - f i) = - rsum n f.
Proof. induction n as [|n IH]; cbn [rsum]; [lra|]. rewrite IH; lra. Qed.

Lemma rsum_scal n k f : rsum n (fun i => k * f i) = k * rsum n f.
Proof. induction n as [|n IH]; cbn [rsum]; [lra|]. rewrite IH; lra. Qed.

Lemma rsum_scal_r n k f : rsum n (fun i => f i * k) = rsum n f * k.
Proof. induction n as [|n IH]; cbn [rsum]; [lra|]. rewrite IH; lra. Qed.

Lemma rsum_zero n : rsum n (fun _ => 0) = 0.
Proof. induction n as [|n IH]; cbn [rsum]; [lra|]. rewrite IH; lra. Qed.

Lemma rsum_zero' n f : (forall i, (i < n)%nat -> f i = 0) -> rsum n f = 0.
Proof. intros H; rewrite (rsum_ext n f (fun _ => 0)) by exact H; apply rsum_zero. Qed.

Lemma rsum_const n c : rsum n (fun _ => c) = INR n * c.
Proof. induction n as [|n IH]; cbn [rsum]; [cbn; lra|]. rewrite IH, S_INR; lra. Qed.

Lemma rsum_nonneg n f : (forall i, (i < n)%nat -> 0 <= f i) -> 0 <= rsum n f.
Proof.
  induction n as [|n IH]; intros H; cbn [rsum]; [lra|].
  assert (0 <= rsum n f) by (apply IH; intros; apply H; lia).
  assert (0 <= f n) by (apply H; lia). lra.
Qed.

Lemma rsum_le n f g : (forall i, (i < n)%nat -> f i <= g i) -> rsum n f <= rsum n g.
Proof.
  induction n as [|n IH]; intros H; cbn [rsum]; [lra|].
  assert (rsum n f <= rsum n g) by (apply IH; intros; apply H; lia).
  assert (f n <= g n) by (apply H; lia). lra.
Qed.

Lemma rsum_nonneg_zero n f :
  (forall i, (i < n)%nat -> 0 <= f i) -> rsum n f = 0 ->
  forall i, (i < n)%nat -> f i = 0.
Proof.
  induction n as [|n IH]; intros H E i Hi; [lia|]. cbn [rsum] in E.
  assert (0 <= rsum n f) by (apply rsum_nonneg; intros; apply H; lia).
  assert (0 <= f n) by (apply H; lia).
  destruct (Nat.eq_dec i n) as [->|Hne]; [lra|].
  apply IH; [intros; apply H; lia|lra|lia].
Qed.

(** One distinguished term. *)
Lemma rsum_single n k f :
  (k < n)%nat -> (forall i, (i < n)%nat -> i <> k -> f i = 0) -> rsum n f = f k.
Proof.
  induction n as [|n IH]; intros Hk H; [lia|]. cbn [rsum].
  destruct (Nat.eq_dec k n) as [->|Hne].
  - rewrite rsum_zero' by (intros; apply H; lia). lra.
  - rewrite IH by (try lia; intros; apply H; lia). rewrite (H n) by lia. lra.
Qed.

Lemma rsum_split n m f :
  rsum (n + m) f = rsum n f + rsum m (fun i => f (n + i)%nat).
Proof.
  induction m as [|m IH]; cbn [rsum].
  - rewrite Nat.add_0_r; lra.
  - rewrite Nat.add_succ_r; cbn [rsum]. rewrite IH; lra.
Qed.

(** Exchange of summation. *)
Lemma rsum_swap n m (f : nat -> nat -> R) :
  rsum n (fun i => rsum m (fun j => f i j)) = rsum m (fun j => rsum n (fun i => f i j)).
Proof.
  induction n as [|n IH]; cbn [rsum].
  - rewrite rsum_zero; reflexivity.
  - rewrite IH. rewrite <- rsum_plus. reflexivity.
Qed.

Lemma rsum_shift n f : rsum (S n) f = f 0%nat + rsum n (fun i => f (S i)).
Proof. change (S n) with (1 + n)%nat. rewrite (rsum_split 1 n f). cbn [rsum]. rewrite Rplus_0_l. reflexivity. Qed.

Lemma rsum_abs n f : Rabs (rsum n f) <= rsum n (fun i => Rabs (f i)).
Proof.
  induction n as [|n IH]; cbn [rsum]; [rewrite Rabs_R0; lra|].
  pose proof (Rabs_triang (rsum n f) (f n)); lra.
Qed.

Lemma dotR_sym n u v : dotR n u v = dotR n v u.
Proof. apply rsum_ext; intros; lra. Qed.

Lemma dotR_nonneg n u : 0 <= dotR n u u.
Proof. apply rsum_nonneg; intros; nra. Qed.

Lemma dotR_zero n u : dotR n u u = 0 -> forall i, (i < n)%nat -> u i = 0.
Proof.
  intros E i Hi. assert (u i * u i = 0) by (apply (rsum_nonneg_zero n (fun i => u i * u i)); auto; intros; nra).
  nra.
Qed.

Lemma dotR_cs n u v : dotR n u v * dotR n u v <= dotR n u u * dotR n v v.
Proof.
  unfold dotR. induction n as [|n IH]; cbn [rsum]; [lra|].
  set (A := rsum n (fun i => u i * u i)) in *.
  set (B := rsum n (fun i => v i * v i)) in *.
  set (C := rsum n (fun i => u i * v i)) in *.
  set (x := u n) in *; set (y := v n) in *.
  assert (HA : 0 <= A) by (apply rsum_nonneg; intros; nra).
  assert (HB : 0 <= B) by (apply rsum_nonneg; intros; nra).
  assert (K : 0 <= A * y * y + B * x * x - 2 * C * x * y).
  { destruct (Req_EM_T A 0) as [E|E].
    - assert (HC : C * C <= 0) by nra. assert (HC0 : C = 0) by nra. rewrite HC0, E.
      assert (0 <= B * (x * x)) by (apply Rmult_le_pos; nra). lra.
    - assert (HA' : 0 < A) by lra.
      assert (K : 0 <= A * (A * y * y + B * x * x - 2 * C * x * y)).
      { replace (A * (A * y * y + B * x * x - 2 * C * x * y))
          with ((A * y - C * x) * (A * y - C * x) + (A * B - C * C) * (x * x)) by ring.
        assert (0 <= (A * y - C * x) * (A * y - C * x)) by apply (Rle_0_sqr (A * y - C * x)).
        assert (0 <= (A * B - C * C) * (x * x)) by (apply Rmult_le_pos; nra). lra. }
      apply (Rmult_le_reg_l A); [exact HA'|]. lra. }
  nra.
Qed.

Lemma lenR_nonneg n u : 0 <= lenR n u.
Proof. apply sqrt_pos. Qed.

Lemma lenR_sq n u : lenR n u * lenR n u = dotR n u u.
Proof. apply sqrt_sqrt, dotR_nonneg. Qed.

Lemma lenR_zero n u : lenR n u = 0 -> forall i, (i < n)%nat -> u i = 0.
Proof. intros E. apply dotR_zero. rewrite <- lenR_sq, E; lra. Qed.

Lemma lenR_cs n u v : Rabs (dotR n u v) <= lenR n u * lenR n v.
Proof.
  apply Rsqr_incr_0_var; [|pose proof (lenR_nonneg n u); pose proof (lenR_nonneg n v); nra].
  unfold Rsqr. rewrite <- Rabs_mult.
  rewrite Rabs_pos_eq by (pose proof (Rle_0_sqr (dotR n u v)); unfold Rsqr in *; lra).
  replace (lenR n u * lenR n v * (lenR n u * lenR n v))
    with ((lenR n u * lenR n u) * (lenR n v * lenR n v)) by ring.
  rewrite !lenR_sq. apply dotR_cs.
Qed.

Lemma dotR_plus_l n u v w : dotR n (fun i => u i + v i) w = dotR n u w + dotR n v w.
Proof. unfold dotR. rewrite <- rsum_plus. apply rsum_ext; intros; lra. Qed.
Lemma dotR_plus_r n u v w : dotR n w (fun i => u i + v i) = dotR n w u + dotR n w v.
Proof. unfold dotR. rewrite <- rsum_plus. apply rsum_ext; intros; lra. Qed.
Lemma dotR_minus_l n u v w : dotR n (fun i => u i - v i) w = dotR n u w - dotR n v w.
Proof. unfold dotR. rewrite <- rsum_minus. apply rsum_ext; intros; lra. Qed.
Lemma dotR_minus_r n u v w : dotR n w (fun i => u i - v i) = dotR n w u - dotR n w v.
Proof. unfold dotR. rewrite <- rsum_minus. apply rsum_ext; intros; lra. Qed.
Lemma dotR_scal_l n k u w : dotR n (fun i => k * u i) w = k * dotR n u w.
Proof. unfold dotR. rewrite <- rsum_scal. apply rsum_ext; intros; lra. Qed.
Lemma dotR_scal_r n k u w : dotR n w (fun i => k * u i) = k * dotR n w u.
Proof. unfold dotR. rewrite <- rsum_scal. apply rsum_ext; intros; lra. Qed.

Lemma lenR_triangle n u v : lenR n (fun i => u i + v i) <= lenR n u + lenR n v.
Proof.
  apply Rsqr_incr_0_var; [|pose proof (lenR_nonneg n u); pose proof (lenR_nonneg n v); lra].
  unfold Rsqr. rewrite lenR_sq.
  rewrite dotR_plus_l, !dotR_plus_r, (dotR_sym n v u).
  pose proof (lenR_cs n u v). pose proof (Rle_abs (dotR n u v)).
  pose proof (lenR_sq n u); pose proof (lenR_sq n v). nra.
Qed.

Lemma lenR_ext n u v : (forall i, (i < n)%nat -> u i = v i) -> lenR n u = lenR n v.
Proof. intros H; unfold lenR, dotR; f_equal; apply rsum_ext; intros i Hi; rewrite H by exact Hi; reflexivity. Qed.

Lemma dotR_ext n u v u' v' :
  (forall i, (i < n)%nat -> u i = u' i) -> (forall i, (i < n)%nat -> v i = v' i) ->
  dotR n u v = dotR n u' v'.
Proof. intros H1 H2; apply rsum_ext; intros i Hi; rewrite H1, H2 by exact Hi; reflexivity. Qed.

Lemma lenR_scal n k u : lenR n (fun i => k * u i) = Rabs k * lenR n u.
Proof.
  unfold lenR. rewrite dotR_scal_l, dotR_scal_r, <- Rmult_assoc.
  rewrite sqrt_mult by (try apply dotR_nonneg; nra).
  f_equal. rewrite <- (sqrt_Rsqr_abs k). reflexivity.
Qed.
