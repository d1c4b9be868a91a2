(** Real-number core of C202: pi to 18 digits and the tangent up to 60 degrees. *)
From Coq Require Import ZArith Reals Lra Lia Machin.
Local Open Scope R_scope.

Lemma pi_bounds : 3141592653589793238 / 1000000000000000000 <= PI <= 3141592653589793239 / 1000000000000000000.
Proof.
  pose proof (PI_2_3_7_ineq 9) as (A & B).
  cbn [sum_f_R0 Nat.mul Nat.add] in A, B. unfold tg_alt, PI_2_3_7_tg, Ratan_seq in A, B.
  cbn [pow Nat.mul Nat.add] in A, B.
  repeat match type of A with context [INR ?n] => let v := eval vm_compute in (Z.of_nat n) in replace (INR n) with (IZR v) in A by (rewrite INR_IZR_INZ; reflexivity) end.
  repeat match type of B with context [INR ?n] => let v := eval vm_compute in (Z.of_nat n) in replace (INR n) with (IZR v) in B by (rewrite INR_IZR_INZ; reflexivity) end.
  split.
  - clear B. match type of A with ?x <= _ => apply Rle_trans with (4 * x); [|lra] end. clear A. lra.
  - clear A. match type of B with _ <= ?x => apply Rle_trans with (4 * x); [lra|] end. clear B. lra.
Qed.
Lemma tan_lim (c : R) : - PI / 2 < c < PI / 2 -> derivable_pt_lim tan c (1 + tan c ^ 2).
Proof.
  intros H. rewrite <- (derive_pt_tan c H). unfold derive_pt. destruct (derivable_pt_tan c H) as (l & Hl). exact Hl.
Qed.
(** |cos a - cos b| <= |a - b| *)
Lemma cos_lip (a b : R) : a <= b -> cos a - (b - a) <= cos b.
Proof.
  intros H. destruct (Rle_lt_or_eq_dec a b H) as [L| ->]; [|lra].
  destruct (MVT_cor2 cos (fun x => - sin x) a b L (fun c _ => derivable_pt_lim_cos c)) as (c & E & _).
  pose proof (SIN_bound c) as (S1 & S2).
  assert (- sin c * (b - a) >= -1 * (b - a)) by (apply Rle_ge, Rmult_le_compat_r; lra). lra.
Qed.
Lemma cos_60 (c : R) : 0 <= c <= PI / 3 + / 1000 -> 499 / 1000 <= cos c.
Proof.
  intros (H0 & H1). pose proof pi_bounds. destruct (Rle_dec c (PI / 3)) as [L|L].
  - assert (cos (PI / 3) <= cos c) by (apply cos_decr_1; lra). rewrite cos_PI3 in H2. lra.
  - pose proof (cos_lip (PI / 3) c ltac:(lra)). rewrite cos_PI3 in H2. lra.
Qed.
Lemma tan2_60 (c : R) : 0 <= c <= PI / 3 + / 1000 -> 1 + tan c ^ 2 <= 402 / 100.
Proof.
  intros H. pose proof (cos_60 c H) as C. unfold tan.
  assert (E : 1 + (sin c / cos c) ^ 2 = / (cos c * cos c)).
  { pose proof (sin2_cos2 c) as P. unfold Rsqr in P. replace (1 + (sin c / cos c) ^ 2) with ((sin c * sin c + cos c * cos c) / (cos c * cos c)) by (field; lra). rewrite P. unfold Rdiv. ring. }
  rewrite E. replace (402 / 100) with (/ (100 / 402)) by field. apply Rinv_le_contravar; [lra|].
  assert (499 / 1000 * (499 / 1000) <= cos c * cos c) by (apply Rmult_le_compat; lra). lra.
Qed.
Lemma tan_ge (y : R) : 0 <= y <= PI / 3 + / 1000 -> y <= tan y <= 402 / 100 * y.
Proof.
  intros H. pose proof pi_bounds. destruct (Rle_lt_or_eq_dec 0 y (proj1 H)) as [L|<-]; [|rewrite tan_0; lra].
  destruct (MVT_cor2 tan (fun x => 1 + tan x ^ 2) 0 y L) as (c & E & Hc).
  { intros c Hc. apply tan_lim. lra. }
  rewrite tan_0 in E. pose proof (tan2_60 c ltac:(lra)). pose proof (pow2_ge_0 (tan c)).
  replace (tan y) with ((1 + tan c ^ 2) * y) by lra. split.
  - rewrite <- (Rmult_1_l y) at 1. apply Rmult_le_compat_r; lra.
  - apply Rmult_le_compat_r; lra.
Qed.
Lemma tan_near (x y e : R) : 0 <= x <= PI / 3 + / 1000 -> 0 <= y <= PI / 3 + / 1000 -> Rabs (x - y) <= e * y -> Rabs (tan x - tan y) <= 402 / 100 * e * tan y.
Proof.
  intros Hx Hy HE. pose proof pi_bounds as HP. pose proof (tan_ge y Hy) as TY.
  assert (D : forall a b, 0 <= a <= PI / 3 + / 1000 -> 0 <= b <= PI / 3 + / 1000 -> a < b -> 0 <= tan b - tan a <= 402 / 100 * (b - a)).
  { intros a b Ha Hb L. destruct (MVT_cor2 tan (fun x => 1 + tan x ^ 2) a b L) as (c & E & Hc). { intros c Hc. apply tan_lim. lra. }
    rewrite E. pose proof (tan2_60 c ltac:(lra)). pose proof (pow2_ge_0 (tan c)). split; [apply Rmult_le_pos; lra|apply Rmult_le_compat_r; lra]. }
  assert (K : Rabs (tan x - tan y) <= 402 / 100 * Rabs (x - y)).
  { destruct (Rtotal_order x y) as [L|[->|L]].
    - pose proof (D x y Hx Hy L). rewrite (Rabs_left1 (tan x - tan y)), (Rabs_left1 (x - y)) by lra. lra.
    - rewrite !Rminus_diag_eq, Rabs_R0 by reflexivity. lra.
    - pose proof (D y x Hy Hx L). rewrite (Rabs_pos_eq (tan x - tan y)), (Rabs_pos_eq (x - y)) by lra. lra. }
  eapply Rle_trans; [exact K|]. rewrite Rmult_assoc. apply Rmult_le_compat_l; [lra|]. eapply Rle_trans; [exact HE|].
  destruct (Rle_lt_or_eq_dec 0 y (proj1 Hy)) as [L|<-]; [|rewrite tan_0; lra].
  apply Rmult_le_compat_l; [|lra]. pose proof (Rabs_pos (x - y)). apply (Rmult_le_reg_r y); [exact L|]. lra.
Qed.
