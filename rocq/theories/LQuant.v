(** Real-number core of C197-C200: quantisation with rounded operations. *)
From Coq Require Import ZArith Reals Lra Psatz.
From Verif Require Import LRot LDist.
Local Open Scope R_scope.

Section Q.
Context (u e : R) (Hu : 0 < u <= / 1000000) (He : 0 <= e <= u / 1000).
(** (w r / T) + 1/2 with w, T known up to u and every operation rounded. *)
Lemma q_val (w w' r p T t s v : R) : 1 <= r -> 0 < T -> Rabs w <= T -> e <= u * T / 1000 ->
  Rabs (w' - w) <= u * Rabs w -> Rabs (p - w' * r) <= u * Rabs (w' * r) + e -> Rabs (t - T) <= u * T ->
  Rabs (p / t) <= 2 * r /\
  (Rabs (s - p / t) <= u * Rabs (p / t) + e -> Rabs (s) <= 3 * r /\
   (Rabs (v - (s + / 2)) <= u * Rabs (s + / 2) -> Rabs (v - (w * r / T + / 2)) <= 7 * u * r)).
Proof.
  intros Hr HT Hw Het Ew Ep Et. set (x := w * r / T).
  assert (uT : 0 <= u * T <= / 1000000 * T) by (split; [apply Rmult_le_pos; lra|apply Rmult_le_compat_r; lra]).
  assert (ur : 0 <= u * r <= / 1000000 * r) by (split; [apply Rmult_le_pos; lra|apply Rmult_le_compat_r; lra]).
  assert (uur : 0 <= u * (u * r) <= / 1000000 * (u * r)) by (split; [apply Rmult_le_pos; lra|apply Rmult_le_compat_r; lra]).
  assert (u1 : u <= u * r) by (rewrite <- (Rmult_1_r u) at 1; apply Rmult_le_compat_l; lra).
  assert (X : Rabs x <= r).
  { unfold x, Rdiv. rewrite !Rabs_mult, (Rabs_pos_eq r), (Rabs_pos_eq (/ T)) by (try (left; apply Rinv_0_lt_compat); lra).
    apply (Rmult_le_reg_r T); [exact HT|]. rewrite Rmult_assoc, Rinv_l by lra. rewrite Rmult_1_r. rewrite (Rmult_comm r). apply Rmult_le_compat_r; lra. }
  assert (WX : w * r = x * T) by (unfold x; field; lra).
  apply abs_le_inv in Et.
  assert (rT : 0 < r * T) by (apply Rmult_lt_0_compat; lra).
  assert (WR : Rabs (w' * r - x * T) <= u * (r * T)).
  { rewrite <- WX. replace (w' * r - w * r) with ((w' - w) * r) by ring. rewrite Rabs_mult, (Rabs_pos_eq r) by lra.
    replace (u * (r * T)) with (u * T * r) by ring. apply Rmult_le_compat_r; [lra|]. eapply Rle_trans; [exact Ew|]. apply Rmult_le_compat_l; lra. }
  assert (XT : Rabs (x * T) <= r * T) by (rewrite Rabs_mult, (Rabs_pos_eq T) by lra; apply Rmult_le_compat_r; lra).
  assert (urT : 0 <= u * (r * T) <= / 1000000 * (r * T)) by (split; [apply Rmult_le_pos; lra|apply Rmult_le_compat_r; lra]).
  assert (uurT : u * (u * (r * T)) <= / 1000000 * (u * (r * T))) by (apply Rmult_le_compat_r; lra).
  assert (WB : Rabs (w' * r) <= r * T + u * (r * T)).
  { replace (w' * r) with ((w' * r - x * T) + x * T) by ring. eapply Rle_trans; [apply Rabs_triang|]. lra. }
  pose proof (mulc u _ _ ltac:(lra) WB) as UWB.
  assert (ET : e <= / 1000 * (u * (r * T))).
  { assert (u * T <= u * (r * T)) by (apply Rmult_le_compat_l; [lra|]; rewrite <- (Rmult_1_l T) at 1; apply Rmult_le_compat_r; lra). lra. }
  assert (P1 : Rabs (p - x * T) <= 202 / 100 * (u * (r * T))) by (apply abs_le_inv in Ep, WR; apply Rabs_le; lra).
  assert (XE : Rabs (x * (T - t)) <= u * (r * T)).
  { rewrite Rabs_mult. replace (u * (r * T)) with (r * (u * T)) by ring. apply Rmult_le_compat; try apply Rabs_pos; [exact X|]. apply Rabs_le. lra. }
  assert (T0 : 0 < t) by lra.
  assert (Q : Rabs (p / t - x) <= 303 / 100 * (u * r)).
  { replace (p / t - x) with (((p - x * T) + x * (T - t)) / t) by (field; lra). unfold Rdiv at 1. rewrite Rabs_mult, (Rabs_pos_eq (/ t)) by (left; apply Rinv_0_lt_compat; exact T0).
    apply (Rmult_le_reg_r t); [exact T0|]. rewrite Rmult_assoc, Rinv_l, Rmult_1_r by lra. eapply Rle_trans; [apply Rabs_triang|].
    assert (303 / 100 * (u * r) * (T - u * T) <= 303 / 100 * (u * r) * t) by (apply Rmult_le_compat_l; lra).
    replace (303 / 100 * (u * r) * (T - u * T)) with (303 / 100 * (u * (r * T)) - 303 / 100 * (u * (u * (r * T)))) in H by field. lra. }
  assert (Q2 : Rabs (p / t) <= r + 303 / 100 * (u * r)).
  { replace (p / t) with ((p / t - x) + x) by ring. eapply Rle_trans; [apply Rabs_triang|]. lra. }
  split; [lra|]. intros Es. pose proof (mulc u _ _ ltac:(lra) Q2) as UQ.
  assert (S1 : Rabs (s - x) <= 41 / 10 * (u * r)) by (apply abs_le_inv in Es, Q; apply Rabs_le; lra).
  assert (S2 : Rabs s <= r + 41 / 10 * (u * r)).
  { replace s with ((s - x) + x) by ring. eapply Rle_trans; [apply Rabs_triang|]. lra. }
  split; [lra|]. intros Ev.
  assert (S3 : Rabs (s + / 2) <= r + 41 / 10 * (u * r) + / 2).
  { eapply Rle_trans; [apply Rabs_triang|]. rewrite (Rabs_pos_eq (/ 2)) by lra. lra. }
  pose proof (mulc u _ _ ltac:(lra) S3) as US. apply abs_le_inv in Ev, S1. apply Rabs_le. lra.
Qed.
(** c T, and c T + mn, rounded; c = k / r. *)
Lemma d_val (c d T t p A : R) : Rabs c <= 1 -> 0 < T -> T <= 2 * A -> e <= u * A / 1000 -> Rabs (d - c) <= u * Rabs c + e -> Rabs (t - T) <= u * T ->
  Rabs (p - d * t) <= u * Rabs (d * t) + e -> Rabs (p - c * T) <= 7 * u * A /\ Rabs (d * t) <= 3 * A.
Proof.
  intros Hc HT HA HeA Ed Et Ep. assert (uA : 0 <= u * A <= / 1000000 * A) by (split; [apply Rmult_le_pos; lra|apply Rmult_le_compat_r; lra]).
  assert (uc : u * Rabs c <= u * 1) by (apply Rmult_le_compat_l; lra).
  assert (uT : u * T <= 2 * (u * A)) by (replace (2 * (u * A)) with (u * (2 * A)) by ring; apply Rmult_le_compat_l; lra).
  assert (D1 : Rabs (d - c) <= 1001 / 1000 * u) by lra.
  assert (uT2 : u * T <= / 1000000 * T) by (apply Rmult_le_compat_r; lra).
  apply abs_le_inv in Et.
  assert (TB : Rabs t <= 201 / 100 * A) by (rewrite Rabs_pos_eq; lra).
  assert (M1 : Rabs ((d - c) * t) <= 1001 / 1000 * u * (201 / 100 * A)) by (apply prod_le; assumption).
  assert (M2 : Rabs (c * (t - T)) <= 1 * (2 * (u * A))) by (apply prod_le; [exact Hc|apply Rabs_le; lra]).
  assert (M3 : Rabs (c * T) <= 1 * (2 * A)) by (apply prod_le; [exact Hc|rewrite Rabs_pos_eq; lra]).
  assert (M4 : Rabs (d * t - c * T) <= 402 / 100 * (u * A)).
  { replace (d * t - c * T) with ((d - c) * t + c * (t - T)) by ring. eapply Rle_trans; [apply Rabs_triang|]. lra. }
  assert (M5 : Rabs (d * t) <= 201 / 100 * A).
  { replace (d * t) with ((d * t - c * T) + c * T) by ring. eapply Rle_trans; [apply Rabs_triang|]. lra. }
  pose proof (mulc u _ _ ltac:(lra) M5) as M6. split; [|lra]. apply abs_le_inv in M4, Ep. apply Rabs_le. lra.
Qed.
Lemma d_val_plus (c T p y mn A : R) : Rabs (p - c * T) <= 7 * u * A -> Rabs (c * T + mn) <= A -> Rabs (y - (p + mn)) <= u * Rabs (p + mn) ->
  Rabs (y - (c * T + mn)) <= 81 / 10 * u * A.
Proof.
  intros Hp HB Hy. assert (A0 : 0 <= A) by (pose proof (Rabs_pos (c * T + mn)); lra).
  assert (uA : 0 <= u * A <= / 1000000 * A) by (split; [apply Rmult_le_pos; lra|apply Rmult_le_compat_r; lra]).
  assert (uuA : u * (u * A) <= / 1000000 * (u * A)) by (apply Rmult_le_compat_r; lra).
  assert (P : Rabs (p + mn) <= A + 7 * (u * A)).
  { replace (p + mn) with ((p - c * T) + (c * T + mn)) by ring. eapply Rle_trans; [apply Rabs_triang|]. lra. }
  pose proof (mulc u _ _ ltac:(lra) P) as M. apply abs_le_inv in Hp, Hy. apply Rabs_le. lra.
Qed.
End Q.
(** Clamping towards an interval that contains the target cannot hurt. *)
Lemma clamp_near (y x lo hi B : R) : lo <= x <= hi -> Rabs (y - x) <= B -> Rabs (Rmin (Rmax lo y) hi - x) <= B.
Proof.
  intros Hx HB. apply abs_le_inv in HB. apply Rabs_le. unfold Rmin, Rmax. destruct (Rle_dec lo y); destruct (Rle_dec _ hi); lra.
Qed.
