(** Property C157: the orthographic camera in float precision, from its six
    numbers to the verdict of the culler, against the exact box. *)
From Coq Require Import ZArith Reals Lra Psatz Bool List.
From Flocq Require Import Core.Core IEEE754.BinarySingleNaN IEEE754.Binary IEEE754.Bits.
From Verif Require Import InstR InstF InstF32 LVector LMatrix LVector2 Spec LSum LVectorR LVecProps2 MFrustum Spec4 PFrustum PCuller MFloat MCullF MViewF PF32 LF32 PF32b LExprF PCullF PCullF2 PViewF32.
From Verif Require LF32d LExt32 PFilter PFloat LFloat PFloat2 LErr PFrustumF PFrustumF32.
Import ListNotations.
Local Open Scope R_scope.
Local Notation bp := (bpow radix2).
Local Existing Instance F32Scalar.
Local Notation uro_val := PCullF.uro_val.


Lemma oside_x (l r c a p w u0 u1 u2 u3 v0 v1 v2 v3 x y z X Y Z : R) :
  Rabs l <= 2 ^ 14 -> Rabs r <= 2 ^ 14 -> l < r -> (c = 1 \/ c = -1) -> (a = 1 \/ a = -1) -> p = c * a -> w = ((r - l) - c * (r + l)) / 2 ->
  Rabs x <= X -> Rabs y <= Y -> Rabs z <= Z ->
  Rabs (u0 - 0) <= eta -> Rabs (u1 - 0) <= eta -> Rabs (u2 - 0) <= eta -> Rabs (u3 - 1) <= 4 * uro + eta ->
  Rabs (v0 - (a * 2 / (r - l))) <= 4 * uro * Rabs (a * 2 / (r - l)) + eta -> Rabs (v1 - 0) <= eta -> Rabs (v2 - 0) <= eta -> Rabs (v3 - (- (r + l) / (r - l))) <= 4 * uro * Rabs (- (r + l) / (r - l)) + eta ->
  close_to (x, y, z) X Y Z ((u0 + c * v0, u1 + c * v1, u2 + c * v2), u3 + c * v3)
    (((p, 0, 0), w), 40 / 2 ^ 24 * 1 * (X + Rmax (Rabs l) (Rabs r)) + (X + Y + Z + 1) / 2 ^ 130).
Proof.
  intros lB rB lr Hc Ha Ep Ew HX HY HZ U0 U1 U2 U3 V0 V1 V2 V3.
  assert (X0 : 0 <= X) by (pose proof (Rabs_pos x); lra). assert (Y0 : 0 <= Y) by (pose proof (Rabs_pos y); lra). assert (Z0 : 0 <= Z) by (pose proof (Rabs_pos z); lra).
  assert (U : 0 < uro <= / 1000000) by (rewrite uro_val; lra). assert (EP := eta_pos).
  assert (B14 : 2 ^ 15 = 2 * 2 ^ 14) by (cbn; ring).
  pose proof (max_split l r lr) as EM. set (M := Rmax (Rabs l) (Rabs r)) in *.
  assert (M0 : 0 <= M) by (rewrite <- EM; pose proof (Rabs_pos (r + l)); lra).
  assert (MB : M <= 2 ^ 14) by (unfold M; apply Rmax_lub; assumption).
  set (s := (r - l) / 2). set (dd := 2 * s * eta). set (dl := 2 * s * eta / 1).
  assert (s0 : 0 < s) by (unfold s; lra). assert (sM : s <= M) by (unfold s; pose proof (Rabs_pos (r + l)); lra).
  assert (IR : 0 < / (r - l)) by (apply Rinv_0_lt_compat; lra).
  assert (CA : Rabs (a * 2 / (r - l)) = 2 / (r - l)).
  { unfold Rdiv. rewrite Rabs_mult, (Rabs_pos_eq (/ (r - l))) by lra. f_equal. destruct Ha; subst a; [rewrite Rabs_pos_eq|rewrite Rabs_left]; lra. }
  assert (pn : Rabs p = 1) by (rewrite Ep; destruct Hc; subst c; destruct Ha; subst a; unfold Rabs; destruct Rcase_abs; lra).
  assert (wM : Rabs w <= M).
  { rewrite <- EM, Ew. destruct Hc; subst c; unfold Rabs; repeat destruct Rcase_abs; lra. }
  assert (L1 : len3R (p, 0, 0) = 1).
  { unfold len3R. cbn [dot3]. match goal with |- sqrt ?e = _ => replace e with 1 by (rewrite Ep; destruct Hc; subst c; destruct Ha; subst a; ring) end. apply sqrt_1. }
  assert (dn : dl = dd) by (unfold dl, dd; field).
  assert (d0 : 0 <= dd) by (apply Rmult_le_pos; lra).
  pose proof (fin_side ((u0 + c * v0, u1 + c * v1, u2 + c * v2), u3 + c * v3) ((p, 0, 0), w) (x, y, z) s X Y Z (4 * uro + dd) dd dd (4 * uro * M + dd) 1 (X + M) dl 1 s0 HX HY HZ) as Q.
  cbv beta iota zeta in Q. rewrite L1 in Q. unfold close_to. cbn [fst snd]. apply Q; clear Q.
  - replace p with (s * (0 + c * (a * 2 / (r - l)))) by (unfold s; rewrite Ep; field; lra). eapply Rle_trans; [apply sum_err; [exact s0|exact U0|exact V0|exact Hc]|].
    apply Req_le. rewrite CA. unfold dd, s. field. lra.
  - replace (0 : R) with (s * (0 + c * 0)) by ring. eapply Rle_trans; [apply sum_err; [exact s0|exact U1|exact V1|exact Hc]|]. unfold dd. lra.
  - replace (0 : R) with (s * (0 + c * 0)) by ring. eapply Rle_trans; [apply sum_err; [exact s0|exact U2|exact V2|exact Hc]|]. unfold dd. lra.
  - replace w with (s * (1 + c * (- (r + l) / (r - l)))) by (unfold s; rewrite Ew; field; lra). eapply Rle_trans; [apply sum_err; [exact s0|exact U3|exact V3|exact Hc]|].
    apply Req_le. rewrite <- EM. unfold Rdiv at 1. rewrite Rabs_mult, Rabs_Ropp, (Rabs_pos_eq (/ (r - l))) by lra. unfold dd, s. field. lra.
  - lra.
  - lra.
  - rewrite Rmult_1_r. lra.
  - lra.
  - rewrite n15. lra.
  - reflexivity.
  - cbn [termsR]. rewrite !Rabs_mult, Rabs_R0, pn, (Rabs_pos_eq X X0), (Rabs_pos_eq Y Y0), (Rabs_pos_eq Z Z0). lra.
  - rewrite dn. lra.
  - rewrite dn. assert (0 <= uro * M) by (apply Rmult_le_pos; lra). assert (0 <= dd * X) by (apply Rmult_le_pos; lra). assert (0 <= dd * Y) by (apply Rmult_le_pos; lra). assert (0 <= dd * Z) by (apply Rmult_le_pos; lra). lra.
Qed.
Lemma oside_y (l r c a p w u0 u1 u2 u3 v0 v1 v2 v3 x y z X Y Z : R) :
  Rabs l <= 2 ^ 14 -> Rabs r <= 2 ^ 14 -> l < r -> (c = 1 \/ c = -1) -> (a = 1 \/ a = -1) -> p = c * a -> w = ((r - l) - c * (r + l)) / 2 ->
  Rabs x <= X -> Rabs y <= Y -> Rabs z <= Z ->
  Rabs (u0 - 0) <= eta -> Rabs (u1 - 0) <= eta -> Rabs (u2 - 0) <= eta -> Rabs (u3 - 1) <= 4 * uro + eta ->
  Rabs (v0 - 0) <= eta -> Rabs (v1 - (a * 2 / (r - l))) <= 4 * uro * Rabs (a * 2 / (r - l)) + eta -> Rabs (v2 - 0) <= eta -> Rabs (v3 - (- (r + l) / (r - l))) <= 4 * uro * Rabs (- (r + l) / (r - l)) + eta ->
  close_to (x, y, z) X Y Z ((u0 + c * v0, u1 + c * v1, u2 + c * v2), u3 + c * v3)
    (((0, p, 0), w), 40 / 2 ^ 24 * 1 * (Y + Rmax (Rabs l) (Rabs r)) + (X + Y + Z + 1) / 2 ^ 130).
Proof.
  intros lB rB lr Hc Ha Ep Ew HX HY HZ U0 U1 U2 U3 V0 V1 V2 V3.
  assert (X0 : 0 <= X) by (pose proof (Rabs_pos x); lra). assert (Y0 : 0 <= Y) by (pose proof (Rabs_pos y); lra). assert (Z0 : 0 <= Z) by (pose proof (Rabs_pos z); lra).
  assert (U : 0 < uro <= / 1000000) by (rewrite uro_val; lra). assert (EP := eta_pos).
  assert (B14 : 2 ^ 15 = 2 * 2 ^ 14) by (cbn; ring).
  pose proof (max_split l r lr) as EM. set (M := Rmax (Rabs l) (Rabs r)) in *.
  assert (M0 : 0 <= M) by (rewrite <- EM; pose proof (Rabs_pos (r + l)); lra).
  assert (MB : M <= 2 ^ 14) by (unfold M; apply Rmax_lub; assumption).
  set (s := (r - l) / 2). set (dd := 2 * s * eta). set (dl := 2 * s * eta / 1).
  assert (s0 : 0 < s) by (unfold s; lra). assert (sM : s <= M) by (unfold s; pose proof (Rabs_pos (r + l)); lra).
  assert (IR : 0 < / (r - l)) by (apply Rinv_0_lt_compat; lra).
  assert (CA : Rabs (a * 2 / (r - l)) = 2 / (r - l)).
  { unfold Rdiv. rewrite Rabs_mult, (Rabs_pos_eq (/ (r - l))) by lra. f_equal. destruct Ha; subst a; [rewrite Rabs_pos_eq|rewrite Rabs_left]; lra. }
  assert (pn : Rabs p = 1) by (rewrite Ep; destruct Hc; subst c; destruct Ha; subst a; unfold Rabs; destruct Rcase_abs; lra).
  assert (wM : Rabs w <= M).
  { rewrite <- EM, Ew. destruct Hc; subst c; unfold Rabs; repeat destruct Rcase_abs; lra. }
  assert (L1 : len3R (0, p, 0) = 1).
  { unfold len3R. cbn [dot3]. match goal with |- sqrt ?e = _ => replace e with 1 by (rewrite Ep; destruct Hc; subst c; destruct Ha; subst a; ring) end. apply sqrt_1. }
  assert (dn : dl = dd) by (unfold dl, dd; field).
  assert (d0 : 0 <= dd) by (apply Rmult_le_pos; lra).
  pose proof (fin_side ((u0 + c * v0, u1 + c * v1, u2 + c * v2), u3 + c * v3) ((0, p, 0), w) (x, y, z) s X Y Z dd (4 * uro + dd) dd (4 * uro * M + dd) 1 (Y + M) dl 1 s0 HX HY HZ) as Q.
  cbv beta iota zeta in Q. rewrite L1 in Q. unfold close_to. cbn [fst snd]. apply Q; clear Q.
  - replace (0 : R) with (s * (0 + c * 0)) by ring. eapply Rle_trans; [apply sum_err; [exact s0|exact U0|exact V0|exact Hc]|]. unfold dd. lra.
  - replace p with (s * (0 + c * (a * 2 / (r - l)))) by (unfold s; rewrite Ep; field; lra). eapply Rle_trans; [apply sum_err; [exact s0|exact U1|exact V1|exact Hc]|].
    apply Req_le. rewrite CA. unfold dd, s. field. lra.
  - replace (0 : R) with (s * (0 + c * 0)) by ring. eapply Rle_trans; [apply sum_err; [exact s0|exact U2|exact V2|exact Hc]|]. unfold dd. lra.
  - replace w with (s * (1 + c * (- (r + l) / (r - l)))) by (unfold s; rewrite Ew; field; lra). eapply Rle_trans; [apply sum_err; [exact s0|exact U3|exact V3|exact Hc]|].
    apply Req_le. rewrite <- EM. unfold Rdiv at 1. rewrite Rabs_mult, Rabs_Ropp, (Rabs_pos_eq (/ (r - l))) by lra. unfold dd, s. field. lra.
  - lra.
  - lra.
  - rewrite Rmult_1_r. lra.
  - lra.
  - rewrite n15. lra.
  - reflexivity.
  - cbn [termsR]. rewrite !Rabs_mult, Rabs_R0, pn, (Rabs_pos_eq X X0), (Rabs_pos_eq Y Y0), (Rabs_pos_eq Z Z0). lra.
  - rewrite dn. lra.
  - rewrite dn. assert (0 <= uro * M) by (apply Rmult_le_pos; lra). assert (0 <= dd * X) by (apply Rmult_le_pos; lra). assert (0 <= dd * Y) by (apply Rmult_le_pos; lra). assert (0 <= dd * Z) by (apply Rmult_le_pos; lra). lra.
Qed.
Lemma oside_z (l r c a p w u0 u1 u2 u3 v0 v1 v2 v3 x y z X Y Z : R) :
  Rabs l <= 2 ^ 14 -> Rabs r <= 2 ^ 14 -> l < r -> (c = 1 \/ c = -1) -> (a = 1 \/ a = -1) -> p = c * a -> w = ((r - l) - c * (r + l)) / 2 ->
  Rabs x <= X -> Rabs y <= Y -> Rabs z <= Z ->
  Rabs (u0 - 0) <= eta -> Rabs (u1 - 0) <= eta -> Rabs (u2 - 0) <= eta -> Rabs (u3 - 1) <= 4 * uro + eta ->
  Rabs (v0 - 0) <= eta -> Rabs (v1 - 0) <= eta -> Rabs (v2 - (a * 2 / (r - l))) <= 4 * uro * Rabs (a * 2 / (r - l)) + eta -> Rabs (v3 - (- (r + l) / (r - l))) <= 4 * uro * Rabs (- (r + l) / (r - l)) + eta ->
  close_to (x, y, z) X Y Z ((u0 + c * v0, u1 + c * v1, u2 + c * v2), u3 + c * v3)
    (((0, 0, p), w), 40 / 2 ^ 24 * 1 * (Z + Rmax (Rabs l) (Rabs r)) + (X + Y + Z + 1) / 2 ^ 130).
Proof.
  intros lB rB lr Hc Ha Ep Ew HX HY HZ U0 U1 U2 U3 V0 V1 V2 V3.
  assert (X0 : 0 <= X) by (pose proof (Rabs_pos x); lra). assert (Y0 : 0 <= Y) by (pose proof (Rabs_pos y); lra). assert (Z0 : 0 <= Z) by (pose proof (Rabs_pos z); lra).
  assert (U : 0 < uro <= / 1000000) by (rewrite uro_val; lra). assert (EP := eta_pos).
  assert (B14 : 2 ^ 15 = 2 * 2 ^ 14) by (cbn; ring).
  pose proof (max_split l r lr) as EM. set (M := Rmax (Rabs l) (Rabs r)) in *.
  assert (M0 : 0 <= M) by (rewrite <- EM; pose proof (Rabs_pos (r + l)); lra).
  assert (MB : M <= 2 ^ 14) by (unfold M; apply Rmax_lub; assumption).
  set (s := (r - l) / 2). set (dd := 2 * s * eta). set (dl := 2 * s * eta / 1).
  assert (s0 : 0 < s) by (unfold s; lra). assert (sM : s <= M) by (unfold s; pose proof (Rabs_pos (r + l)); lra).
  assert (IR : 0 < / (r - l)) by (apply Rinv_0_lt_compat; lra).
  assert (CA : Rabs (a * 2 / (r - l)) = 2 / (r - l)).
  { unfold Rdiv. rewrite Rabs_mult, (Rabs_pos_eq (/ (r - l))) by lra. f_equal. destruct Ha; subst a; [rewrite Rabs_pos_eq|rewrite Rabs_left]; lra. }
  assert (pn : Rabs p = 1) by (rewrite Ep; destruct Hc; subst c; destruct Ha; subst a; unfold Rabs; destruct Rcase_abs; lra).
  assert (wM : Rabs w <= M).
  { rewrite <- EM, Ew. destruct Hc; subst c; unfold Rabs; repeat destruct Rcase_abs; lra. }
  assert (L1 : len3R (0, 0, p) = 1).
  { unfold len3R. cbn [dot3]. match goal with |- sqrt ?e = _ => replace e with 1 by (rewrite Ep; destruct Hc; subst c; destruct Ha; subst a; ring) end. apply sqrt_1. }
  assert (dn : dl = dd) by (unfold dl, dd; field).
  assert (d0 : 0 <= dd) by (apply Rmult_le_pos; lra).
  pose proof (fin_side ((u0 + c * v0, u1 + c * v1, u2 + c * v2), u3 + c * v3) ((0, 0, p), w) (x, y, z) s X Y Z dd dd (4 * uro + dd) (4 * uro * M + dd) 1 (Z + M) dl 1 s0 HX HY HZ) as Q.
  cbv beta iota zeta in Q. rewrite L1 in Q. unfold close_to. cbn [fst snd]. apply Q; clear Q.
  - replace (0 : R) with (s * (0 + c * 0)) by ring. eapply Rle_trans; [apply sum_err; [exact s0|exact U0|exact V0|exact Hc]|]. unfold dd. lra.
  - replace (0 : R) with (s * (0 + c * 0)) by ring. eapply Rle_trans; [apply sum_err; [exact s0|exact U1|exact V1|exact Hc]|]. unfold dd. lra.
  - replace p with (s * (0 + c * (a * 2 / (r - l)))) by (unfold s; rewrite Ep; field; lra). eapply Rle_trans; [apply sum_err; [exact s0|exact U2|exact V2|exact Hc]|].
    apply Req_le. rewrite CA. unfold dd, s. field. lra.
  - replace w with (s * (1 + c * (- (r + l) / (r - l)))) by (unfold s; rewrite Ew; field; lra). eapply Rle_trans; [apply sum_err; [exact s0|exact U3|exact V3|exact Hc]|].
    apply Req_le. rewrite <- EM. unfold Rdiv at 1. rewrite Rabs_mult, Rabs_Ropp, (Rabs_pos_eq (/ (r - l))) by lra. unfold dd, s. field. lra.
  - lra.
  - lra.
  - rewrite Rmult_1_r. lra.
  - lra.
  - rewrite n15. lra.
  - reflexivity.
  - cbn [termsR]. rewrite !Rabs_mult, Rabs_R0, pn, (Rabs_pos_eq X X0), (Rabs_pos_eq Y Y0), (Rabs_pos_eq Z Z0). lra.
  - rewrite dn. lra.
  - rewrite dn. assert (0 <= uro * M) by (apply Rmult_le_pos; lra). assert (0 <= dd * X) by (apply Rmult_le_pos; lra). assert (0 <= dd * Y) by (apply Rmult_le_pos; lra). assert (0 <= dd * Z) by (apply Rmult_le_pos; lra). lra.
Qed.
(** The exact half-spaces x >= l, x <= r, y >= b, y <= t, z <= -n, z >= -f and
    the margin of each. *)
Definition ortho_bounds (l r b t n f : R) (q : V3) : list (hs * R) :=
  let '(x, y, z) := q in
  let k := 40 / 2 ^ 24 in let tail := (Rabs x + Rabs y + Rabs z + 1) / 2 ^ 130 in
  let mx := k * (Rabs x + Rmax (Rabs l) (Rabs r)) + tail in
  let my := k * (Rabs y + Rmax (Rabs b) (Rabs t)) + tail in
  let mz := k * (Rabs z + Rmax (Rabs n) (Rabs f)) + tail in
  [(((1, 0, 0), - l), mx); (((-1, 0, 0), r), mx); (((0, 1, 0), - b), my); (((0, -1, 0), t), my);
   (((0, 0, -1), - n), mz); (((0, 0, 1), f), mz)].
(** C157: they bound the viewing box. *)
Theorem C157_half_spaces_of_the_box :
  forall (l r b t n f : R) (x y z : R),
  (l <= x <= r /\ b <= y <= t /\ - f <= z <= - n) <-> forall H m, In (H, m) (ortho_bounds l r b t n f (x, y, z)) -> 0 <= hval H (x, y, z).
Proof.
  intros l r b t n f x y z. unfold ortho_bounds. split.
  - intros (Hx & Hy & Hz) H m HI. cbn [In] in HI. destruct HI as [E|[E|[E|[E|[E|[E|[]]]]]]]; injection E as <- _; unfold hval; cbn [fst snd dot3]; lra.
  - intros HA.
    pose proof (HA _ _ (or_introl eq_refl)) as H1. pose proof (HA _ _ (or_intror (or_introl eq_refl))) as H2.
    pose proof (HA _ _ (or_intror (or_intror (or_introl eq_refl)))) as H3. pose proof (HA _ _ (or_intror (or_intror (or_intror (or_introl eq_refl))))) as H4.
    pose proof (HA _ _ (or_intror (or_intror (or_intror (or_intror (or_introl eq_refl)))))) as H5.
    pose proof (HA _ _ (or_intror (or_intror (or_intror (or_intror (or_intror (or_introl eq_refl))))))) as H6. clear HA.
    unfold hval in *. cbn [fst snd dot3] in *. lra.
Qed.
Print Assumptions C157_half_spaces_of_the_box.

Definition glo (l r b t n f : R) (i j : nat) : R := nth (j * 4 + i) (PFrustumF.gl_ortho l r b t n f) 0.
Lemma ortho_real (l r b t n f : R) (g : nat -> nat -> R) (x y z X Y Z : R) :
  Rabs l <= 2 ^ 14 -> Rabs r <= 2 ^ 14 -> Rabs b <= 2 ^ 14 -> Rabs t <= 2 ^ 14 -> Rabs n <= 2 ^ 14 -> Rabs f <= 2 ^ 14 -> l < r -> b < t -> n < f ->
  Rabs x <= X -> Rabs y <= Y -> Rabs z <= Z ->
  (forall i j, (i < 4)%nat -> (j < 4)%nat -> Rabs (g i j - glo l r b t n f i j) <= 4 * uro * Rabs (glo l r b t n f i j) + eta) ->
  Forall2 (close_to (x, y, z) X Y Z) (faces g) (ortho_bounds l r b t n f (X, Y, Z)).
Proof.
  intros lB rB bB tB nB fB lr bt nf HX HY HZ HG.
  assert (X0 : 0 <= X) by (pose proof (Rabs_pos x); lra). assert (Y0 : 0 <= Y) by (pose proof (Rabs_pos y); lra). assert (Z0 : 0 <= Z) by (pose proof (Rabs_pos z); lra).
  unfold faces, ortho_bounds. rewrite (Rabs_pos_eq X X0), (Rabs_pos_eq Y Y0), (Rabs_pos_eq Z Z0). cbv zeta. rewrite <- (Rmult_1_r (40 / 2 ^ 24)).
  assert (Z1 : forall i j, (i < 4)%nat -> (j < 4)%nat -> glo l r b t n f i j = 0 -> Rabs (g i j - 0) <= eta).
  { intros i j Hi Hj E. specialize (HG i j Hi Hj). rewrite E, Rabs_R0 in HG. lra. }
  assert (M1 : Rabs (g 3%nat 3%nat - 1) <= 4 * uro + eta).
  { specialize (HG 3%nat 3%nat ltac:(lia) ltac:(lia)). change (glo l r b t n f 3 3) with 1 in HG. rewrite Rabs_R1 in HG. lra. }
  assert (CE : forall i j v, (i < 4)%nat -> (j < 4)%nat -> glo l r b t n f i j = v -> Rabs (g i j - v) <= 4 * uro * Rabs v + eta) by (intros i j v Hi Hj <-; apply HG; assumption).
  repeat apply Forall2_cons; [| | | | | |apply Forall2_nil]; unfold face.
  1,2: apply (oside_x l r _ 1); try assumption; try lra; try (apply Z1; [lia|lia|reflexivity]); apply CE; first [lia|unfold glo, PFrustumF.gl_ortho; cbn [nth Nat.mul Nat.add]; f_equal; ring].
  1,2: apply (oside_y b t _ 1); try assumption; try lra; try (apply Z1; [lia|lia|reflexivity]); apply CE; first [lia|unfold glo, PFrustumF.gl_ortho; cbn [nth Nat.mul Nat.add]; f_equal; ring].
  1,2: apply (oside_z n f _ (-1)); try assumption; try lra; try (apply Z1; [lia|lia|reflexivity]); apply CE; first [lia|unfold glo, PFrustumF.gl_ortho; cbn [nth Nat.mul Nat.add]; f_equal; ring].
Qed.
(** The six numbers of an orthographic camera. *)
Definition ortho_range (l r b t n f : f32) : Prop :=
  (forall x, In x [l; r; b; t; n; f] -> fin x /\ Rabs (val x) <= 2 ^ 14) /\
  / 2 ^ 15 <= val r - val l /\ / 2 ^ 15 <= val t - val b /\ / 2 ^ 15 <= val f - val n.
Lemma b39 : 2 ^ 14 = bp 14 /\ / 2 ^ 15 = bp (-15).
Proof. exact (conj (eq_sym (bpow_pow 14)) (eq_sym (eq_trans (bpow_opp radix2 15) (f_equal Rinv (bpow_pow 15))))). Qed.
(** C157: the orthographic matrix is accurate also where near or far is zero or
    negative. *)
Theorem C157_ortho_matrix_accurate :
  forall (cfg : Cfg) (l r b t n f : f32), ortho_range l r b t n f ->
  exists m, frf_compute_ortho_matrix [l; r; b; t; n; f] = Ok m /\ Forall2 PFrustumF32.near4 m (PFrustumF.gl_ortho (val l) (val r) (val b) (val t) (val n) (val f)).
Proof.
  intros cfg l r b t n f (HI & D1 & D2 & D3). destruct b39 as (P39 & M15). rewrite P39, M15 in *.
  assert (OK : forall x, In x [l; r; b; t; n; f] -> okf32 14 x) by (intros x Hx; apply HI; exact Hx).
  pose proof (OK l ltac:(cbn; tauto)) as Ol. pose proof (OK r ltac:(cbn; tauto)) as Or. pose proof (OK b ltac:(cbn; tauto)) as Ob.
  pose proof (OK t ltac:(cbn; tauto)) as Ot. pose proof (OK n ltac:(cbn; tauto)) as On. pose proof (OK f ltac:(cbn; tauto)) as Of.
  pose proof (PFrustumF32.rel1_minus 14 r l Or Ol ltac:(lia)) as S1. pose proof (PFrustumF32.rel1_minus 14 t b Ot Ob ltac:(lia)) as S2. pose proof (PFrustumF32.rel1_minus 14 f n Of On ltac:(lia)) as S3.
  pose proof (PFrustumF32.rel1_plus 14 r l Or Ol ltac:(lia)) as P1. pose proof (PFrustumF32.rel1_plus 14 t b Ot Ob ltac:(lia)) as P2. pose proof (PFrustumF32.rel1_plus 14 f n Of On ltac:(lia)) as P3.
  assert (BP : forall x y : f32, okf32 14 x -> okf32 14 y -> Rabs (val x + val y) <= bp 15).
  { intros x y (_ & X) (_ & Y). eapply Rle_trans; [apply Rabs_triang|]. change 15%Z with (14 + 1)%Z. rewrite bpow_plus. change (bp 1) with 2. lra. }
  assert (BM : forall x y : f32, okf32 14 x -> okf32 14 y -> Rabs (val x - val y) <= bp 100).
  { intros x y (_ & X) (_ & Y). apply (Rle_trans _ (bp 15)); [|apply bpow_le; lia]. unfold Rminus. eapply Rle_trans; [apply Rabs_triang|]. rewrite Rabs_Ropp. change 15%Z with (14 + 1)%Z. rewrite bpow_plus. change (bp 1) with 2. lra. }
  assert (R2 : PFrustumF.rel1 f64_two 2) by (rewrite <- LFloat.val_two; apply PFrustumF.rel1_refl; reflexivity).
  assert (B2 : bp (-200) <= Rabs 2 <= bp 15) by (rewrite Rabs_pos_eq by lra; change 2 with (bp 1); split; apply bpow_le; lia).
  assert (B2' : bp (-200) <= Rabs (- (2)) <= bp 15) by (rewrite Rabs_Ropp; exact B2).
  assert (N0 : PFrustumF32.near4 f32_zero 0) by (apply PFrustumF32.near4_exact; reflexivity).
  assert (N1 : PFrustumF32.near4 f32_one 1) by (apply PFrustumF32.near4_exact; [reflexivity|apply val_one]).
  assert (Q1 : bp (-15) <= Rabs (val r - val l)) by (eapply Rle_trans; [exact D1|apply Rle_abs]).
  assert (Q2 : bp (-15) <= Rabs (val t - val b)) by (eapply Rle_trans; [exact D2|apply Rle_abs]).
  assert (Q3 : bp (-15) <= Rabs (val f - val n)) by (eapply Rle_trans; [exact D3|apply Rle_abs]).
  eexists. split; [apply PFrustumF32.ortho32|]. unfold PFrustumF.gl_ortho.
  repeat (apply Forall2_cons; [try assumption|]); try apply Forall2_nil;
    first [ eapply (PFrustumF32.near4_div_wide _ _ _ _ 15 (-15)); [first [eassumption|apply PFrustumF.rel1_opp; eassumption]|eassumption|assumption|split; [assumption|apply BM; assumption]|lia]
          | eapply (PFrustumF32.near4_div _ _ _ _ 15 (-15)); [first [eassumption|apply PFrustumF32.rel1_opp; eassumption]|eassumption| |eassumption|lia]
          | idtac ].
  all: try (rewrite Rabs_Ropp); apply BP; assumption.
Qed.
Print Assumptions C157_ortho_matrix_accurate.
Lemma glo_bound (l r b t n f : R) : Rabs l <= 2 ^ 14 -> Rabs r <= 2 ^ 14 -> Rabs b <= 2 ^ 14 -> Rabs t <= 2 ^ 14 -> Rabs n <= 2 ^ 14 -> Rabs f <= 2 ^ 14 ->
  / 2 ^ 15 <= r - l -> / 2 ^ 15 <= t - b -> / 2 ^ 15 <= f - n ->
  forall i j, Rabs (glo l r b t n f i j) <= 2 * 2 ^ 15 * 2 ^ 8 * 2 ^ 15.
Proof.
  rewrite n15, n8. assert (E14 : 2 ^ 14 = 16384) by (cbn; lra). rewrite E14. intros Hl Hr Hb Ht Hn Hf D1 D2 D3.
  assert (A : forall u d, / 32768 <= d -> Rabs u <= 32768 * 1 -> Rabs (u / d) <= 2 * 32768 * 256 * 32768).
  { intros u d Hd Hu. apply Rle_trans with (32768 * 32768); [|lra]. refine (quot_bound u d 1 _ _ Rlt_0_1 _ _ Hu _); lra. }
  assert (Z0 : Rabs 0 <= 2 * 32768 * 256 * 32768) by (rewrite Rabs_R0; lra).
  assert (ALL : Forall (fun v => Rabs v <= 2 * 32768 * 256 * 32768) (PFrustumF.gl_ortho l r b t n f)).
  { unfold PFrustumF.gl_ortho. repeat apply Forall_cons; try apply Forall_nil; try exact Z0; try (rewrite Rabs_pos_eq by lra; lra);
    apply A; try assumption; rewrite ?Rabs_Ropp; first [rewrite Rabs_pos_eq by lra; lra|eapply Rle_trans; [apply Rabs_triang|]; lra]. }
  intros i j. unfold glo. destruct (Nat.lt_ge_cases (j * 4 + i) (length (PFrustumF.gl_ortho l r b t n f))) as [H|H].
  - rewrite Forall_forall in ALL. apply ALL, nth_In, H.
  - rewrite nth_overflow by exact H. exact Z0.
Qed.
(** The matrix of the orthographic camera and the planes the culler stores. *)
Lemma ortho_planes (cfg : Cfg) (l r b t n f : f32) : ortho_range l r b t n f ->
  exists m cl P hs6, frf_compute_ortho_matrix [l; r; b; t; n; f] = Ok m /\ fcf_setup m = Ok cl /\ fc_planes cl = map arr P /\
  Forall2 near_unit P hs6 /\ (forall h, In h hs6 -> / 2 ^ 16 <= len3R (fst h)) /\
  forall x y z X Y Z, Rabs x <= X -> Rabs y <= Y -> Rabs z <= Z ->
    Forall2 (close_to (x, y, z) X Y Z) hs6 (ortho_bounds (val l) (val r) (val b) (val t) (val n) (val f) (X, Y, Z)).
Proof.
  intros CR. destruct (C157_ortho_matrix_accurate cfg l r b t n f CR) as (m & Em & NM). destruct CR as (FI & D1 & D2 & D3).
  assert (NE : forall i : nat, fin (nth i m f32_zero) /\ Rabs (val (nth i m f32_zero) - nth i (PFrustumF.gl_ortho (val l) (val r) (val b) (val t) (val n) (val f)) 0) <= 4 * uro * Rabs (nth i (PFrustumF.gl_ortho (val l) (val r) (val b) (val t) (val n) (val f)) 0) + eta).
  { intros i. clear Em. revert NM. generalize (PFrustumF.gl_ortho (val l) (val r) (val b) (val t) (val n) (val f)) as G. intros G NM. revert i. induction NM as [|x v m' G' H _ IH]; intros [|i]; cbn [nth].
    - split; [reflexivity|]. change (val f32_zero) with 0. rewrite Rminus_0_r, Rabs_R0. pose proof eta_pos. lra.
    - split; [reflexivity|]. change (val f32_zero) with 0. rewrite Rminus_0_r, Rabs_R0. pose proof eta_pos. lra.
    - exact H.
    - apply IH. }
  assert (LM : length m = 16%nat) by (rewrite (F2_length _ _ _ NM); reflexivity).
  set (g := fun i j : nat => nth (j * 4 + i) m f32_zero).
  assert (RM : repM 4 4 m g).
  { split; [exact LM|]. intros i j Hi Hj. unfold g. apply nth_error_nth'. rewrite LM. lia. }
  assert (B15 : 2 ^ 15 = 32768) by exact n15.
  pose proof (fun x H => proj2 (FI x H)) as HB.
  assert (l0 : Rabs (val l) <= 2 ^ 14) by (apply HB; cbn [In]; tauto). assert (r0 : Rabs (val r) <= 2 ^ 14) by (apply HB; cbn [In]; tauto).
  assert (b0 : Rabs (val b) <= 2 ^ 14) by (apply HB; cbn [In]; tauto). assert (t0 : Rabs (val t) <= 2 ^ 14) by (apply HB; cbn [In]; tauto).
  assert (n0 : Rabs (val n) <= 2 ^ 14) by (apply HB; cbn [In]; tauto). assert (f0 : Rabs (val f) <= 2 ^ 14) by (apply HB; cbn [In]; tauto).
  pose proof (glo_bound _ _ _ _ _ _ l0 r0 b0 t0 n0 f0 D1 D2 D3) as GB.
  assert (OK : okm g).
  { intros i j Hi Hj. destruct (NE (j * 4 + i)%nat) as (F1 & E1). split; [exact F1|]. specialize (GB i j). fold (g i j) in E1. fold (glo (val l) (val r) (val b) (val t) (val n) (val f) i j) in E1.
    apply abs_tri_err in E1. assert (U : uro <= / 1000000) by (rewrite uro_val; lra). assert (P0 := Rabs_pos (glo (val l) (val r) (val b) (val t) (val n) (val f) i j)).
    assert (ES : eta <= 1) by (rewrite eta_bp; change 1 with (bp 0); apply bpow_le; lia).
    assert (Q : 4 * uro * Rabs (glo (val l) (val r) (val b) (val t) (val n) (val f) i j) <= / 2 * Rabs (glo (val l) (val r) (val b) (val t) (val n) (val f) i j)) by (apply Rmult_le_compat_r; lra).
    eapply Rle_trans; [exact E1|]. 
    assert (Q1 : 2 ^ 40 = 1099511627776) by (cbn; lra). rewrite n15, n8 in GB. lra. }
  assert (lr : val l < val r) by (rewrite B15 in D1; lra). assert (bt : val b < val t) by (rewrite B15 in D2; lra). assert (nf : val n < val f) by (rewrite B15 in D3; lra).
  assert (VR : forall x y z X Y Z, Rabs x <= X -> Rabs y <= Y -> Rabs z <= Z ->
    Forall2 (close_to (x, y, z) X Y Z) (faces (vals g)) (ortho_bounds (val l) (val r) (val b) (val t) (val n) (val f) (X, Y, Z))).
  { intros x y z X Y Z HX HY HZ. apply ortho_real; try assumption. intros i j Hi Hj. apply (NE (j * 4 + i)%nat). }
  assert (HL : forall h, In h (faces (vals g)) -> / 2 ^ 16 <= len3R (fst h)).
  { intros h Hh. destruct (Forall2_In_l _ _ _ _ (VR 0 0 0 0 0 0 ltac:(rewrite Rabs_R0; lra) ltac:(rewrite Rabs_R0; lra) ltac:(rewrite Rabs_R0; lra)) Hh) as (Hm & _ & C & _). exact C. }
  destruct (C154_setup_planes_in_float cfg m g RM OK HL) as (cl & P & E1 & E2 & E3).
  exists m, cl, P, (faces (vals g)). repeat (split; [assumption|]). exact VR.
Qed.

Lemma ortho_bounds_len l r b t n f q Hm : In Hm (ortho_bounds l r b t n f q) -> 0 < len3R (fst (fst Hm)).
Proof.
  destruct q as [[x y] z]. unfold ortho_bounds. cbn [In]. intros HI.
  assert (P : forall p q w : R, p <> 0 \/ q <> 0 \/ w <> 0 -> 0 < len3R (p, q, w)).
  { intros p q w H. destruct (len3_comp p q w) as (A1 & A2 & A3). destruct H as [H|[H|H]]; apply Rabs_pos_lt in H; lra. }
  destruct HI as [<-|[<-|[<-|[<-|[<-|[<-|[]]]]]]]; cbn [fst snd]; apply P; first [left; lra|right; left; lra|right; right; lra].
Qed.
Lemma ortho_abs l r b t n f x y z : ortho_bounds l r b t n f (Rabs x, Rabs y, Rabs z) = ortho_bounds l r b t n f (x, y, z).
Proof. unfold ortho_bounds. rewrite !Rabs_Rabsolu. reflexivity. Qed.

(** C157: an orthographic camera given by six floats, its matrix, the culler set
    up from it and the test of a sphere, all in float, against the exact box. *)
Theorem C157_ortho_sphere_culling :
  forall (cfg : Cfg) (l r b t n f x y z rad : f32),
  ortho_range l r b t n f -> sane x -> sane y -> sane z -> sane rad ->
  let c := (val x, val y, val z) in
  let F := ortho_bounds (val l) (val r) (val b) (val t) (val n) (val f) c in
  exists m cl v, frf_compute_ortho_matrix [l; r; b; t; n; f] = Ok m /\ fcf_setup m = Ok cl /\ fc_test_sphere cl [x; y; z; rad] = Ok v /\
  (v = V_NONE -> exists H mg, In (H, mg) F /\ forall q, in_ball c (val rad) q -> sdist H q <= mg) /\
  (v = V_FULL -> forall H mg q, In (H, mg) F -> in_ball c (val rad) q -> - mg <= sdist H q) /\
  (forall q, in_ball c (val rad) q -> (forall H mg, In (H, mg) F -> mg < sdist H q) -> v <> V_NONE) /\
  ((exists H mg, In (H, mg) F /\ sdist H c <= - val rad - mg) -> v = V_NONE) /\
  (0 < val rad -> (forall H mg, In (H, mg) F -> val rad + mg <= sdist H c) -> v = V_FULL).
Proof.
  intros cfg l r b t n f x y z rad CR Hx Hy Hz Hr c F. destruct (ortho_planes cfg l r b t n f CR) as (m & cl & P & h6 & Em & Ec & EP & NU & HL & VR).
  assert (LP : forall h, In h h6 -> 0 < len3R (fst h)). { intros h Hh. eapply Rlt_le_trans; [apply pow_pos_inv|apply HL, Hh]. }
  assert (SP : forall p, In p P -> sane4 p). { intros p Hp. destruct (Forall2_In_l _ _ _ _ NU Hp) as (h & Hh & N). apply (sphere_margin p h c (LP h Hh) N). }
  destruct (C153_sphere_culling_in_float cl P x y z rad EP SP Hx Hy Hz Hr) as (v & Ev & C1 & C2 & C3 & C4). fold c in C1, C2, C3, C4.
  specialize (VR (val x) (val y) (val z) (Rabs (val x)) (Rabs (val y)) (Rabs (val z)) (Rle_refl _) (Rle_refl _) (Rle_refl _)). rewrite ortho_abs in VR. fold c F in VR.
  assert (MG : forall p h Hm, In h h6 -> near_unit p h -> close_to c (Rabs (val x)) (Rabs (val y)) (Rabs (val z)) h Hm ->
    Rabs (hval (hsv p) c - sdist (fst Hm) c) + margin (hsv p) c <= snd Hm).
  { intros p h Hm Hh N C. apply (close_from _ _ _ _ _ _ h Hm _ _ C). destruct (sphere_margin p h c (LP h Hh) N) as (_ & M). eapply Rle_trans; [exact M|].
    unfold setup_margin, c. replace (termsR h (Rabs (val x), Rabs (val y), Rabs (val z))) with (termsR h (val x, val y, val z)) by (destruct h as [[[a1 a2] a3] a4]; cbn [termsR]; rewrite !Rabs_mult, !Rabs_Rabsolu; reflexivity).
    pose proof (pow_pos_inv 53) as P53. pose proof (pow_pos_inv 149) as P149. specialize (LP h Hh).
    assert (T0 : 0 <= termsR h (val x, val y, val z) / len3R (fst h)).
    { apply Rmult_le_pos; [|apply Rlt_le, Rinv_0_lt_compat, LP]. destruct h as [[[a1 a2] a3] a4]; cbn [termsR]; repeat apply Rplus_le_le_0_compat; apply Rabs_pos. }
    apply Rplus_le_compat; [apply Rmult_le_compat_r; [exact T0|]|]; unfold Rdiv; apply Rmult_le_compat_r; lra. }
  assert (FL : forall p, In p P -> exists Hm, In Hm F /\ Rabs (hval (hsv p) c - sdist (fst Hm) c) + margin (hsv p) c <= snd Hm).
  { intros p Hp. destruct (Forall2_In_l _ _ _ _ NU Hp) as (h & Hh & N). destruct (Forall2_In_l _ _ _ _ VR Hh) as (Hm & HI & C). exists Hm. split; [exact HI|]. exact (MG p h Hm Hh N C). }
  assert (FR : forall Hm, In Hm F -> exists p, In p P /\ Rabs (hval (hsv p) c - sdist (fst Hm) c) + margin (hsv p) c <= snd Hm).
  { intros Hm HI. destruct (Forall2_In_r _ _ _ _ VR HI) as (h & Hh & C). destruct (Forall2_In_r _ _ _ _ NU Hh) as (p & Hp & N). exists p. split; [exact Hp|]. exact (MG p h Hm Hh N C). }
  assert (LF : forall H mg, In (H, mg) F -> 0 < len3R (fst H)) by (intros H mg HI; exact (ortho_bounds_len _ _ _ _ _ _ _ (H, mg) HI)).
  exists m, cl, v. repeat (split; [assumption|]).
  assert (N : v = V_NONE -> exists H mg, In (H, mg) F /\ forall q, in_ball c (val rad) q -> sdist H q <= mg).
  { intros Hv. destruct (C1 Hv) as (p & Hp & H). destruct (FL p Hp) as ((H' & mg) & HI & M). exists H', mg. split; [exact HI|]. intros q Hq.
    pose proof (sdist_ball H' c (val rad) q (LF _ _ HI) Hq) as B. apply Rabs_le_inv in B. cbn [fst snd] in M. pose proof (Rabs_fact (hval (hsv p) c - sdist H' c)). lra. }
  split; [exact N|]. split; [|split; [|split]].
  - intros Hv H mg q HI Hq. destruct (FR _ HI) as (p & Hp & M). specialize (C2 Hv p Hp). cbn [fst snd] in M.
    pose proof (sdist_ball H c (val rad) q (LF _ _ HI) Hq) as B. apply Rabs_le_inv in B. pose proof (Rabs_fact (hval (hsv p) c - sdist H c)). lra.
  - intros q Hq Hin Hv. destruct (N Hv) as (H & mg & HI & A). specialize (A q Hq). specialize (Hin H mg HI). lra.
  - intros (H & mg & HI & A). apply C3. destruct (FR _ HI) as (p & Hp & M). exists p. split; [exact Hp|]. cbn [fst snd] in M. pose proof (Rabs_fact (hval (hsv p) c - sdist H c)). lra.
  - intros R0 A. apply C4; [exact R0|]. intros p Hp. destruct (FL p Hp) as ((H & mg) & HI & M). specialize (A H mg HI). cbn [fst snd] in M. pose proof (Rabs_fact (hval (hsv p) c - sdist H c)). lra.
Qed.
Print Assumptions C157_ortho_sphere_culling.

(** The same for an axis-aligned box. *)
Theorem C157_ortho_box_culling :
  forall (cfg : Cfg) (wide : bool) (l r b t n f x0 x1 y0 y1 z0 z1 : f32),
  ortho_range l r b t n f -> sane x0 -> sane x1 -> sane y0 -> sane y1 -> sane z0 -> sane z1 ->
  let box := in_span (val x0) (val x1) (val y0) (val y1) (val z0) (val z1) in
  let F := ortho_bounds (val l) (val r) (val b) (val t) (val n) (val f) (reach (val x0) (val x1), reach (val y0) (val y1), reach (val z0) (val z1)) in
  exists m cl v, frf_compute_ortho_matrix [l; r; b; t; n; f] = Ok m /\ fcf_setup m = Ok cl /\ fcf_test_aabb wide cl [x0; x1] [y0; y1] [z0; z1] = Ok v /\
  (v = V_NONE -> exists H mg, In (H, mg) F /\ forall q, box q -> sdist H q <= mg) /\
  (v = V_FULL -> forall H mg q, In (H, mg) F -> box q -> - mg <= sdist H q) /\
  (forall q, box q -> (forall H mg, In (H, mg) F -> mg < sdist H q) -> v <> V_NONE) /\
  ((exists H mg, In (H, mg) F /\ forall q, box q -> sdist H q < - mg) -> v = V_NONE) /\
  ((forall H mg q, In (H, mg) F -> box q -> mg <= sdist H q) -> v = V_FULL).
Proof.
  intros cfg wide l r b t n f x0 x1 y0 y1 z0 z1 CR X0 X1 Y0 Y1 Z0 Z1 box F. destruct (ortho_planes cfg l r b t n f CR) as (m & cl & P & h6 & Em & Ec & EP & NU & HL & VR).
  assert (LP : forall h, In h h6 -> 0 < len3R (fst h)). { intros h Hh. eapply Rlt_le_trans; [apply pow_pos_inv|apply HL, Hh]. }
  assert (SP : forall p, In p P -> sane4 p). { intros p Hp. destruct (Forall2_In_l _ _ _ _ NU Hp) as (h & Hh & N). apply (sphere_margin p h (0, 0, 0) (LP h Hh) N). }
  destruct (C153_box_culling_in_float cfg wide cl P x0 x1 y0 y1 z0 z1 EP SP X0 X1 Y0 Y1 Z0 Z1) as (v & Ev & C1 & C2 & C3 & C4). fold box in C1, C2, C3, C4.
  exists m, cl, v. repeat (split; [assumption|]).
  set (bm := fun p => box_margin (hsv p) (val x0) (val x1) (val y0) (val y1) (val z0) (val z1)) in *.
  assert (CL : forall q, box q -> Forall2 (close_to q (reach (val x0) (val x1)) (reach (val y0) (val y1)) (reach (val z0) (val z1))) h6 F).
  { intros [[x y] z] (Bx & By & Bz). apply VR; apply reach_in; assumption. }
  assert (MG : forall p h Hm q, In h h6 -> near_unit p h -> box q -> close_to q (reach (val x0) (val x1)) (reach (val y0) (val y1)) (reach (val z0) (val z1)) h Hm ->
    Rabs (hval (hsv p) q - sdist (fst Hm) q) + bm p <= snd Hm).
  { intros p h Hm [[x y] z] Hh N Hq C. apply (close_from _ _ _ _ _ _ h Hm _ _ C). apply (box_margin_setup p h _ _ _ _ _ _ (x, y, z)); [apply LP, Hh|exact N|exact Hq]. }
  (* the list of half-spaces does not depend on the point *)
  assert (P6 : Forall2 (fun p Hm => forall q, box q -> Rabs (hval (hsv p) q - sdist (fst Hm) q) + bm p <= snd Hm) P F).
  { assert (GEN : forall P' h' F', Forall2 near_unit P' h' -> (forall q, box q -> Forall2 (close_to q (reach (val x0) (val x1)) (reach (val y0) (val y1)) (reach (val z0) (val z1))) h' F') ->
      (forall h, In h h' -> In h h6) -> length h' = length F' -> Forall2 (fun p Hm => forall q, box q -> Rabs (hval (hsv p) q - sdist (fst Hm) q) + bm p <= snd Hm) P' F').
    { intros P' h' F' HN. revert F'. induction HN as [|p h P' h' N HN IH]; intros F' HC HI HLn.
      - destruct F'; [constructor|discriminate HLn].
      - destruct F' as [|Hm F']; [discriminate HLn|]. constructor.
        + intros q Hq. specialize (HC q Hq). inversion HC; subst. eapply MG; [apply HI; left; reflexivity|exact N|exact Hq|assumption].
        + apply IH; [intros q Hq; specialize (HC q Hq); inversion HC; subst; assumption|intros h0 Hh0; apply HI; right; exact Hh0|injection HLn; auto]. }
    apply (GEN P h6 F NU CL (fun h H => H)).
    assert (B0 : box (val x0, val y0, val z0)) by (unfold box, in_span, between_R; repeat split; first [apply Rmin_l|apply Rmax_l|unfold Rmin, Rmax; repeat destruct Rle_dec; lra]).
    exact (F2_length _ _ _ (CL _ B0)). }
  assert (N : v = V_NONE -> exists H mg, In (H, mg) F /\ forall q, box q -> sdist H q <= mg).
  { intros Hv. destruct (C1 Hv) as (p & Hp & H). destruct (Forall2_In_l _ _ _ _ P6 Hp) as ((H' & mg) & HI & M). exists H', mg. split; [exact HI|]. intros q Hq.
    specialize (M q Hq). specialize (H q Hq). cbn [fst snd] in M. pose proof (Rabs_fact (hval (hsv p) q - sdist H' q)). unfold bm in M. lra. }
  split; [exact N|]. split; [|split; [|split]].
  - intros Hv H mg q HI Hq. destruct (Forall2_In_r _ _ _ _ P6 HI) as (p & Hp & M). specialize (C2 Hv p q Hp Hq). specialize (M q Hq). cbn [fst snd] in M.
    pose proof (Rabs_fact (hval (hsv p) q - sdist H q)). unfold bm in M. lra.
  - intros q Hq Hin Hv. destruct (N Hv) as (H & mg & HI & A). specialize (A q Hq). specialize (Hin H mg HI). lra.
  - intros (H & mg & HI & A). apply C3. destruct (Forall2_In_r _ _ _ _ P6 HI) as (p & Hp & M). exists p. split; [exact Hp|]. intros q Hq. specialize (A q Hq). specialize (M q Hq). cbn [fst snd] in M.
    pose proof (Rabs_fact (hval (hsv p) q - sdist H q)). unfold bm in M. lra.
  - intros A. apply C4. intros p q Hp Hq. destruct (Forall2_In_l _ _ _ _ P6 Hp) as ((H & mg) & HI & M). specialize (A H mg q HI Hq). specialize (M q Hq). cbn [fst snd] in M.
    pose proof (Rabs_fact (hval (hsv p) q - sdist H q)). unfold bm in M. lra.
Qed.
Print Assumptions C157_ortho_box_culling.


(** The box of the camera (-1, 1, -1, 1, -1, 1), whose near plane is behind the
    viewer, and three spheres of radius one half. *)
Example C157_hypotheses_met :
  ortho_range (b32_opp f32_one) f32_one (b32_opp f32_one) f32_one (b32_opp f32_one) f32_one /\
  sane f32_zero /\ sane f32_half /\ sane f32_one /\
  (forall cfg : Cfg, let cull := fun p => (m <- frf_compute_ortho_matrix [b32_opp f32_one; f32_one; b32_opp f32_one; f32_one; b32_opp f32_one; f32_one] ;; cl <- fcf_setup m ;; fc_test_sphere cl p) in
   cull [f32_zero; f32_zero; f32_zero; f32_half] = Ok V_FULL /\
   cull [f32_zero; f32_zero; f32_one; f32_half] = Ok V_PARTIAL /\
   cull [f32_zero; f32_zero; f32_two; f32_half] = Ok V_NONE).
Proof.
  assert (VO : val (b32_opp f32_one) = - 1) by (unfold val, b32_opp; rewrite B2R_Bopp; fold (val f32_one); rewrite val_one; lra).
  assert (E14 : 2 ^ 14 = 16384) by (cbn; lra).
  split.
  - unfold ortho_range. rewrite VO, val_one, n15, E14. split; [|lra].
    intros x Hx. cbn [In] in Hx. repeat destruct Hx as [<-|Hx]; try contradiction; (split; [reflexivity|]); rewrite ?VO, ?val_one; unfold Rabs; destruct Rcase_abs; lra.
  - split; [apply sane_zero|]. split; [apply sane_half|]. split; [apply sane_one|].
    intros cfg. repeat split; vm_compute; reflexivity.
Qed.
