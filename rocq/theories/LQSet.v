(** Real-number estimates for C179, C180: a quaternion from an inexact rotation
    matrix (quaternion.hpp:274-349). *)
From Coq Require Import Reals Lra Psatz List.
From Verif Require Import MQuaternion Spec3 PQuaternion LRot.
Local Open Scope R_scope.

(** The scale factor s = 0.5 / sqrt( P ), where P is 4 a^2 up to 3 E. *)
Lemma core_S a P s k E : 0 < a <= 1 -> 0 <= E <= a * a / 100 -> Rabs (P - 4 * (a * a)) <= 3 * E -> 0 <= k <= 6 / 10 * E ->
  Rabs (s - / 2 / sqrt P) <= k * (/ 2 / sqrt P) -> 0 < P /\ Rabs (4 * a * s - 1) <= E / (a * a).
Proof.
  intros Ha HE HP Hk HS. assert (A2 : 0 < a * a) by nra. apply abs_le_inv in HP.
  assert (PP : 0 < P) by lra. split; [exact PP|].
  set (F := E / (a * a)). assert (EF : E = F * (a * a)) by (unfold F; field; lra).
  assert (F0 : 0 <= F <= / 100). { unfold F. split; [apply Rmult_le_pos; [lra|apply Rlt_le, Rinv_0_lt_compat; exact A2]|]. apply (Rmult_le_reg_r (a * a)); [exact A2|]. replace (E / (a * a) * (a * a)) with E by (field; lra). lra. }
  assert (KF : k <= 6 / 10 * F). { rewrite EF in Hk. assert (F * (a * a) <= F * 1) by (apply Rmult_le_compat_l; nra). lra. }
  set (r := sqrt P / (2 * a)). assert (SP : sqrt P = 2 * a * r) by (unfold r; field; lra).
  assert (R0 : 0 < r). { unfold r. apply Rmult_lt_0_compat; [apply sqrt_lt_R0; exact PP|apply Rinv_0_lt_compat; lra]. }
  assert (RR : 4 * (a * a) * (r * r) = P). { rewrite <- (sqrt_sqrt P) by lra. rewrite SP. ring. }
  assert (RB : 1 - 3 / 4 * F <= r * r <= 1 + 3 / 4 * F).
  { rewrite EF in HP. split; apply (Rmult_le_reg_l (4 * (a * a))); try lra; rewrite RR; lra. }
  assert (R1 : 996 / 1000 <= r) by nra.
  assert (D1 : Rabs (r - 1) <= 376 / 1000 * F). { apply Rabs_le. split; nra. }
  apply abs_le_inv in D1.
  assert (I : / 2 / sqrt P = / (4 * a) * / r) by (rewrite SP; field; lra).
  rewrite I in HS. set (t := 4 * a * s). assert (ST : s = / (4 * a) * t) by (unfold t; field; lra).
  assert (HT : Rabs (t - / r) <= k * / r).
  { replace (s - / (4 * a) * / r) with (/ (4 * a) * (t - / r)) in HS by (rewrite ST; ring). rewrite Rabs_mult, (Rabs_pos_eq (/ (4 * a))) in HS by (apply Rlt_le, Rinv_0_lt_compat; lra).
    apply (Rmult_le_reg_l (/ (4 * a))); [apply Rinv_0_lt_compat; lra|]. lra. }
  assert (IR : / r <= 1005 / 1000). { apply (Rmult_le_reg_r r); [exact R0|]. rewrite Rinv_l by lra. lra. }
  assert (J : Rabs (/ r - 1) <= 3779 / 10000 * F).
  { assert (IP : 0 < / r) by (apply Rinv_0_lt_compat; exact R0). replace (/ r - 1) with (- (r - 1) * / r) by (field; lra). rewrite Rabs_mult, Rabs_Ropp, (Rabs_pos_eq (/ r)) by lra.
    apply Rle_trans with (376 / 1000 * F * (1005 / 1000)); [|lra]. apply Rmult_le_compat; [apply Rabs_pos|lra|apply Rabs_le; lra|exact IR]. }
  replace (t - 1) with ((t - / r) + (/ r - 1)) by ring. eapply Rle_trans; [apply Rabs_triang|].
  assert (k * / r <= 6 / 10 * F * (1005 / 1000)). { assert (0 < / r) by (apply Rinv_0_lt_compat; exact R0). apply Rmult_le_compat; lra. }
  lra.
Qed.

(** 0.25 / s. *)
Lemma core_main a s E o d n : 0 < a <= 1 -> 0 <= E <= a * a / 100 -> Rabs (4 * a * s - 1) <= E / (a * a) ->
  Rabs d <= E / 4 -> Rabs n <= E / 100 -> o = / 4 / s * (1 + d) + n -> 0 < s /\ Rabs (o - a) <= 2 * E / (a * a).
Proof.
  intros Ha HE HS Hd Hn ->. assert (A2 : 0 < a * a) by nra.
  replace (2 * E / (a * a)) with (2 * (E / (a * a))) by (unfold Rdiv; ring).
  set (F := E / (a * a)) in *. assert (EF : E = F * (a * a)) by (unfold F; field; lra).
  assert (F0 : 0 <= F <= / 100). { unfold F. split; [apply Rmult_le_pos; [lra|apply Rlt_le, Rinv_0_lt_compat; exact A2]|]. apply (Rmult_le_reg_r (a * a)); [exact A2|]. replace (E / (a * a) * (a * a)) with E by (field; lra). lra. }
  assert (FE : E <= F). { rewrite EF. assert (F * (a * a) <= F * 1) by (apply Rmult_le_compat_l; nra). lra. }
  apply abs_le_inv in HS. set (t := 4 * a * s) in *. assert (ST : s = t / (4 * a)) by (unfold t; field; lra).
  assert (S0 : 0 < s). { rewrite ST. apply Rmult_lt_0_compat; [lra|apply Rinv_0_lt_compat; lra]. } split; [exact S0|].
  replace (/ 4 / s) with (a * / t) by (rewrite ST; field; lra). clearbody t. clear ST S0.
  assert (IT : / t <= 102 / 100) by (apply (Rmult_le_reg_r t); [lra|]; rewrite Rinv_l by lra; lra). assert (IP : 0 < / t) by (apply Rinv_0_lt_compat; lra).
  assert (J : Rabs (/ t - 1) <= 102 / 100 * F).
  { replace (/ t - 1) with (- (t - 1) * / t) by (field; lra). rewrite Rabs_mult, Rabs_Ropp, (Rabs_pos_eq (/ t)) by lra.
    apply Rle_trans with (F * (102 / 100)); [|lra]. apply Rmult_le_compat; [apply Rabs_pos|lra|apply Rabs_le; lra|exact IT]. }
  replace (a * / t * (1 + d) + n - a) with (a * (/ t - 1) + (a * / t * d + n)) by ring.
  eapply Rle_trans; [apply Rabs_triang|]. eapply Rle_trans; [apply Rplus_le_compat; [|apply Rabs_triang]|].
  - rewrite Rabs_mult, (Rabs_pos_eq a) by lra. apply Rmult_le_compat with (r2 := 1) (r4 := 102 / 100 * F); try apply Rabs_pos; lra.
  - assert (Rabs (a * / t * d) <= 1 * (102 / 100) * (E / 4)). { rewrite !Rabs_mult, (Rabs_pos_eq a), (Rabs_pos_eq (/ t)) by lra. repeat apply Rmult_le_compat; try apply Rabs_pos; try lra. apply Rmult_le_pos; lra. }
    lra.
Qed.

(** ( difference ) * s. *)
Lemma core_off a b s E c o d n : 0 < a <= 1 -> 0 <= E <= a * a / 100 -> Rabs (4 * a * s - 1) <= E / (a * a) -> Rabs b <= 1 ->
  Rabs (c - 4 * a * b) <= 2 * E -> Rabs d <= E / 4 -> Rabs n <= E / 100 -> o = c * s * (1 + d) + n -> Rabs (o - b) <= 2 * E / (a * a).
Proof.
  intros Ha HE HS Hb Hc Hd Hn ->. assert (A2 : 0 < a * a) by nra.
  replace (2 * E / (a * a)) with (2 * (E / (a * a))) by (unfold Rdiv; ring).
  set (F := E / (a * a)) in *. assert (EF : E = F * (a * a)) by (unfold F; field; lra).
  assert (F0 : 0 <= F <= / 100). { unfold F. split; [apply Rmult_le_pos; [lra|apply Rlt_le, Rinv_0_lt_compat; exact A2]|]. apply (Rmult_le_reg_r (a * a)); [exact A2|]. replace (E / (a * a) * (a * a)) with E by (field; lra). lra. }
  assert (FE : E <= F * a). { rewrite EF, <- Rmult_assoc. assert (F * a * a <= F * a * 1) by (apply Rmult_le_compat_l; [apply Rmult_le_pos|]; lra). lra. }
  assert (FE' : E <= F). { assert (F * a <= F * 1) by (apply Rmult_le_compat_l; lra). lra. }
  apply abs_le_inv in HS as HS'. set (t := 4 * a * s) in *. assert (ST : s = t * / (4 * a)) by (unfold t; field; lra).
  assert (I4 : 0 < / (4 * a)) by (apply Rinv_0_lt_compat; lra).
  assert (X : c * s - b = (c - 4 * a * b) * s + b * (t - 1)) by (unfold t; ring).
  assert (X1 : Rabs ((c - 4 * a * b) * s) <= 505 / 1000 * F).
  { rewrite Rabs_mult. apply Rle_trans with (2 * E * (101 / 100 * / (4 * a))).
    - apply Rmult_le_compat; try apply Rabs_pos; [exact Hc|]. rewrite ST, Rabs_mult, (Rabs_pos_eq (/ (4 * a))), (Rabs_pos_eq t) by lra. apply Rmult_le_compat_r; lra.
    - apply Rle_trans with (2 * (F * a) * (101 / 100 * / (4 * a))); [|right; field; lra]. apply Rmult_le_compat_r; [lra|]. lra. }
  assert (X2 : Rabs (b * (t - 1)) <= F). { rewrite Rabs_mult, <- (Rmult_1_l F). apply Rmult_le_compat; try apply Rabs_pos; assumption. }
  assert (X3 : Rabs (c * s - b) <= 1505 / 1000 * F) by (rewrite X; eapply Rle_trans; [apply Rabs_triang|]; lra).
  assert (X4 : Rabs (c * s) <= 102 / 100). { replace (c * s) with ((c * s - b) + b) by ring. eapply Rle_trans; [apply Rabs_triang|]. lra. }
  replace (c * s * (1 + d) + n - b) with ((c * s - b) + (c * s * d + n)) by ring.
  eapply Rle_trans; [apply Rabs_triang|]. eapply Rle_trans; [apply Rplus_le_compat; [exact X3|apply Rabs_triang]|].
  assert (Rabs (c * s * d) <= 102 / 100 * (E / 4)) by (rewrite Rabs_mult; apply Rmult_le_compat; try apply Rabs_pos; assumption).
  lra.
Qed.
