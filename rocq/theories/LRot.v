(** Real-number bookkeeping for rotations (C173, C174): u is the rounding error
    of one operation, e that of an underflow, d the error of sin and cos. *)
From Coq Require Import Reals Lra Psatz List.
From Verif Require Import Spec Spec13 LSum LMat4 PMatrix3.
Import ListNotations.
Local Open Scope R_scope.

Lemma abs_le_inv (a b : R) : Rabs a <= b -> - b <= a <= b.
Proof. unfold Rabs. destruct (Rcase_abs a); lra. Qed.
Lemma tri (a b x y : R) : Rabs a <= x -> Rabs b <= y -> Rabs (a + b) <= x + y.
Proof. intros H1 H2. eapply Rle_trans; [apply Rabs_triang|]. lra. Qed.
Lemma prod_le (a b x y : R) : Rabs a <= x -> Rabs b <= y -> Rabs (a * b) <= x * y.
Proof. intros H1 H2. rewrite Rabs_mult. apply Rmult_le_compat; try apply Rabs_pos; assumption. Qed.
Lemma abs_of_err (a b x y : R) : Rabs b <= x -> Rabs (a - b) <= y -> Rabs a <= x + y.
Proof. intros H1 H2. replace a with (b + (a - b)) by ring. apply tri; assumption. Qed.
(** A rounded product of perturbed factors. *)
Lemma prod_err (u e a b a' b' p A B da db : R) : 0 <= u -> 
  Rabs a <= A -> Rabs b <= B -> Rabs (a' - a) <= da -> Rabs (b' - b) <= db ->
  Rabs (p - a' * b') <= u * Rabs (a' * b') + e ->
  Rabs (p - a * b) <= A * db + da * (B + db) + u * ((A + da) * (B + db)) + e.
Proof.
  intros Hu HA HB Ha Hb Hp.
  assert (Ha' : Rabs a' <= A + da) by (apply (abs_of_err a' a); assumption).
  assert (Hb' : Rabs b' <= B + db) by (apply (abs_of_err b' b); assumption).
  replace (p - a * b) with ((p - a' * b') + (a * (b' - b) + (a' - a) * b')) by ring.
  pose proof (prod_le a (b' - b) A db HA Hb) as P1. pose proof (prod_le (a' - a) b' da (B + db) Ha Hb') as P2. pose proof (prod_le a' b' _ _ Ha' Hb') as P3.
  assert (u * Rabs (a' * b') <= u * ((A + da) * (B + db))) by (apply Rmult_le_compat_l; assumption).
  eapply Rle_trans; [apply (tri _ _ (u * ((A + da) * (B + db)) + e) (A * db + da * (B + db)))|lra]; [lra|apply tri; assumption].
Qed.
Lemma sum_err (u a b a' b' p A B da db : R) : 0 <= u ->
  Rabs a <= A -> Rabs b <= B -> Rabs (a' - a) <= da -> Rabs (b' - b) <= db ->
  Rabs (p - (a' + b')) <= u * Rabs (a' + b') ->
  Rabs (p - (a + b)) <= da + db + u * (A + B + da + db).
Proof.
  intros Hu HA HB Ha Hb Hp.
  pose proof (tri a' b' _ _ (abs_of_err a' a _ _ HA Ha) (abs_of_err b' b _ _ HB Hb)) as P.
  assert (u * Rabs (a' + b') <= u * (A + B + da + db)) by (apply Rmult_le_compat_l; lra).
  replace (p - (a + b)) with ((p - (a' + b')) + ((a' - a) + (b' - b))) by ring.
  eapply Rle_trans; [apply (tri _ _ (u * (A + B + da + db)) (da + db))|lra]; [lra|apply tri; assumption].
Qed.
Lemma diff_err (u a b a' b' p A B da db : R) : 0 <= u ->
  Rabs a <= A -> Rabs b <= B -> Rabs (a' - a) <= da -> Rabs (b' - b) <= db ->
  Rabs (p - (a' - b')) <= u * Rabs (a' - b') ->
  Rabs (p - (a - b)) <= da + db + u * (A + B + da + db).
Proof.
  intros Hu HA HB Ha Hb Hp. apply (sum_err u a (- b) a' (- b') p A B da db); try assumption.
  - rewrite Rabs_Ropp. exact HB.
  - replace (- b' - - b) with (- (b' - b)) by ring. rewrite Rabs_Ropp. exact Hb.
Qed.

(** q = a c + b s. *)
Lemma pair_real (u e d a b c s c' s' p1 p2 q : R) : 0 < u <= / 1000000 -> 0 <= e -> 0 <= d <= / 100 ->
  Rabs c <= 1 -> Rabs s <= 1 -> Rabs (c' - c) <= d -> Rabs (s' - s) <= d ->
  Rabs (p1 - a * c') <= u * Rabs (a * c') + e -> Rabs (p2 - b * s') <= u * Rabs (b * s') + e ->
  Rabs (q - (p1 + p2)) <= u * Rabs (p1 + p2) ->
  Rabs (q - (a * c + b * s)) <= (d + 21 / 10 * u) * (Rabs a + Rabs b) + 21 / 10 * e.
Proof.
  intros Hu He Hd Hc Hs Hc' Hs' H1 H2 H3. pose proof (Rabs_pos a) as PA. pose proof (Rabs_pos b) as PB.
  assert (C' : Rabs c' <= 101 / 100) by (pose proof (abs_of_err c' c _ _ Hc Hc'); lra).
  assert (S' : Rabs s' <= 101 / 100) by (pose proof (abs_of_err s' s _ _ Hs Hs'); lra).
  assert (A1 : Rabs (a * c') <= Rabs a * (101 / 100)) by (apply prod_le; [apply Rle_refl|exact C']).
  assert (A2 : Rabs (b * s') <= Rabs b * (101 / 100)) by (apply prod_le; [apply Rle_refl|exact S']).
  assert (D1 : Rabs (a * (c' - c)) <= Rabs a * d) by (apply prod_le; [apply Rle_refl|exact Hc']).
  assert (D2 : Rabs (b * (s' - s)) <= Rabs b * d) by (apply prod_le; [apply Rle_refl|exact Hs']).
  assert (U1 : u * Rabs (a * c') <= 101 / 100 * (u * Rabs a)) by (replace (101 / 100 * (u * Rabs a)) with (u * (Rabs a * (101 / 100))) by field; apply Rmult_le_compat_l; lra).
  assert (U2 : u * Rabs (b * s') <= 101 / 100 * (u * Rabs b)) by (replace (101 / 100 * (u * Rabs b)) with (u * (Rabs b * (101 / 100))) by field; apply Rmult_le_compat_l; lra).
  assert (UA : 0 <= u * Rabs a <= / 1000000 * Rabs a) by (split; [apply Rmult_le_pos; lra|apply Rmult_le_compat_r; lra]).
  assert (UB : 0 <= u * Rabs b <= / 1000000 * Rabs b) by (split; [apply Rmult_le_pos; lra|apply Rmult_le_compat_r; lra]).
  assert (P1 : Rabs p1 <= 102 / 100 * Rabs a + e) by (pose proof (abs_of_err p1 (a * c') _ _ A1 H1); lra).
  assert (P2 : Rabs p2 <= 102 / 100 * Rabs b + e) by (pose proof (abs_of_err p2 (b * s') _ _ A2 H2); lra).
  assert (U3 : u * Rabs (p1 + p2) <= 102 / 100 * (u * Rabs a) + 102 / 100 * (u * Rabs b) + / 100 * e).
  { apply Rle_trans with (u * ((102 / 100 * Rabs a + e) + (102 / 100 * Rabs b + e))); [apply Rmult_le_compat_l; [lra|apply tri; assumption]|].
    assert (u * e <= / 1000000 * e) by (apply Rmult_le_compat_r; lra). lra. }
  replace (q - (a * c + b * s)) with ((q - (p1 + p2)) + ((p1 - a * c') + (p2 - b * s') + (a * (c' - c) + b * (s' - s)))) by ring.
  eapply Rle_trans; [apply tri; [exact H3|apply tri; [apply tri; [exact H1|exact H2]|apply tri; [exact D1|exact D2]]]|]. lra.
Qed.
Lemma pair_real_minus (u e d a b c s c' s' p1 p2 q : R) : 0 < u <= / 1000000 -> 0 <= e -> 0 <= d <= / 100 ->
  Rabs c <= 1 -> Rabs s <= 1 -> Rabs (c' - c) <= d -> Rabs (s' - s) <= d ->
  Rabs (p1 - a * c') <= u * Rabs (a * c') + e -> Rabs (p2 - b * s') <= u * Rabs (b * s') + e ->
  Rabs (q - (p1 - p2)) <= u * Rabs (p1 - p2) ->
  Rabs (q - (a * c - b * s)) <= (d + 21 / 10 * u) * (Rabs a + Rabs b) + 21 / 10 * e.
Proof.
  intros Hu He Hd Hc Hs Hc' Hs' H1 H2 H3.
  replace (a * c - b * s) with (a * c + - b * s) by ring. rewrite <- (Rabs_Ropp b).
  apply (pair_real u e d a (- b) c s c' s' p1 (- p2)); try assumption.
  replace (- p2 - - b * s') with (- (p2 - b * s')) by ring. rewrite Rabs_Ropp. replace (- b * s') with (- (b * s')) by ring. rewrite Rabs_Ropp. exact H2.
Qed.

(** ** Rows of four *)
Lemma dot4 v w : dotR 4 v w = v 0%nat * w 0%nat + v 1%nat * w 1%nat + v 2%nat * w 2%nat + v 3%nat * w 3%nat.
Proof. unfold dotR. cbn [rsum]. ring. Qed.
Lemma sq_two (x y B : R) : Rabs x <= B -> Rabs y <= B -> x * x + y * y <= 2 * (B * B).
Proof.
  intros H1 H2. pose proof (prod_le x x B B H1 H1) as P1. pose proof (prod_le y y B B H2 H2) as P2.
  rewrite Rabs_pos_eq in P1 by nra. rewrite Rabs_pos_eq in P2 by nra. lra.
Qed.
Lemma abs_sum_sq (a b L : R) : 0 <= L -> a * a + b * b <= L * L -> Rabs a + Rabs b <= 142 / 100 * L.
Proof.
  intros HL H. apply Rsqr_incr_0_var; [|lra]. unfold Rsqr.
  assert (E1 : Rabs a * Rabs a = a * a) by (rewrite <- Rabs_mult; apply Rabs_pos_eq; nra).
  assert (E2 : Rabs b * Rabs b = b * b) by (rewrite <- Rabs_mult; apply Rabs_pos_eq; nra).
  pose proof (Rle_0_sqr (Rabs a - Rabs b)) as Q. unfold Rsqr in Q. nra.
Qed.
(** The error of a row in which two entries p, q changed. *)
Lemma row_two (k e : R) (v d : nat -> R) p q : 0 <= k -> 0 <= e -> (p < q < 4)%nat ->
  (forall j, (j < 4)%nat -> j <> p -> j <> q -> d j = 0) ->
  Rabs (d p) <= k * (Rabs (v p) + Rabs (v q)) + 21 / 10 * e -> Rabs (d q) <= k * (Rabs (v p) + Rabs (v q)) + 21 / 10 * e ->
  lenR 4 d <= 2 * k * lenR 4 v + 3 * e.
Proof.
  intros Hk He Hpq HZ H1 H2. pose proof (lenR_nonneg 4 v) as L0. pose proof (lenR_sq 4 v) as LL. rewrite dot4 in LL. set (L := lenR 4 v) in *.
  assert (VV : v p * v p + v q * v q <= L * L).
  { rewrite LL. pose proof (Rle_0_sqr (v 0%nat)) as Q0. pose proof (Rle_0_sqr (v 1%nat)) as Q1. pose proof (Rle_0_sqr (v 2%nat)) as Q2. pose proof (Rle_0_sqr (v 3%nat)) as Q3. unfold Rsqr in *.
    destruct p as [|[|[|p]]]; destruct q as [|[|[|[|q]]]]; try (exfalso; lia); lra. }
  assert (DD : dotR 4 d d = d p * d p + d q * d q).
  { rewrite dot4. destruct p as [|[|[|p]]]; destruct q as [|[|[|[|q]]]]; try (exfalso; lia);
      rewrite ?(HZ 0%nat) by lia; rewrite ?(HZ 1%nat) by lia; rewrite ?(HZ 2%nat) by lia; rewrite ?(HZ 3%nat) by lia; ring. }
  pose proof (abs_sum_sq _ _ L L0 VV) as SS. pose proof (Rabs_pos (v p)). pose proof (Rabs_pos (v q)). set (T := Rabs (v p) + Rabs (v q)) in *.
  assert (T2 : T * T <= 2 * (L * L)).
  { unfold T. assert (E1 : Rabs (v p) * Rabs (v p) = v p * v p) by (rewrite <- Rabs_mult; apply Rabs_pos_eq; nra).
    assert (E2 : Rabs (v q) * Rabs (v q) = v q * v q) by (rewrite <- Rabs_mult; apply Rabs_pos_eq; nra).
    pose proof (Rle_0_sqr (Rabs (v p) - Rabs (v q))) as Q. unfold Rsqr in Q. nra. }
  pose proof (sq_two _ _ _ H1 H2) as D2. rewrite <- DD in D2.
  assert (KL : 0 <= 2 * k * L + 3 * e) by (assert (0 <= k * L) by (apply Rmult_le_pos; lra); lra).
  unfold lenR. rewrite <- (sqrt_square (2 * k * L + 3 * e)) by exact KL. apply sqrt_le_1_alt.
  eapply Rle_trans; [exact D2|].
  assert (X1 : k * k * (T * T) <= k * k * (2 * (L * L))) by (apply Rmult_le_compat_l; [nra|exact T2]).
  assert (X2 : k * e * T <= k * e * (142 / 100 * L)) by (apply Rmult_le_compat_l; [apply Rmult_le_pos; assumption|exact SS]).
  assert (0 <= k * e * L) by (apply Rmult_le_pos; [apply Rmult_le_pos|]; assumption). assert (0 <= e * e) by nra.
  replace (2 * ((k * T + 21 / 10 * e) * (k * T + 21 / 10 * e))) with (2 * (k * k * (T * T)) + 84 / 10 * (k * e * T) + 882 / 100 * (e * e)) by field.
  replace ((2 * k * L + 3 * e) * (2 * k * L + 3 * e)) with (2 * (k * k * (2 * (L * L))) + 12 * (k * e * L) + 9 * (e * e)) by ring. lra.
Qed.

(** A row times an axis rotation keeps its length. *)
Definition rowR (v : nat -> R) (A : nat -> nat -> R) (j : nat) : R := rsum 4 (fun p => v p * A p j).
Lemma rowR_len v a t : lenR 4 (rowR v (axis_rot a t)) = lenR 4 v.
Proof.
  unfold lenR. f_equal. rewrite !dot4. unfold rowR. pose proof (sc1 t) as S.
  destruct a; cbn [rsum axis_rot nth]; generalize dependent (sin t); generalize dependent (cos t); intros c s E;
    set (x := v 0%nat); set (y := v 1%nat); set (z := v 2%nat); set (w := v 3%nat); clearbody x y z w.
  - transitivity (x * x + (s * s + c * c) * (y * y + z * z) + w * w); [ring|rewrite E; ring].
  - transitivity (y * y + (s * s + c * c) * (x * x + z * z) + w * w); [ring|rewrite E; ring].
  - transitivity (z * z + (s * s + c * c) * (x * x + y * y) + w * w); [ring|rewrite E; ring].
Qed.
Lemma rowR_minus v w A j : rowR (fun p => v p - w p) A j = rowR v A j - rowR w A j.
Proof. unfold rowR. cbn [rsum]. ring. Qed.

(** The matrices are those of Rodrigues' formula. *)
Definition axisV (a : axis) : V3 := match a with AX => (1, 0, 0) | AY => (0, 1, 0) | AZ => (0, 0, 1) end.
Lemma axis_rot_rotF a t i j : (i < 4)%nat -> (j < 4)%nat -> axis_rot a t i j = rotF (axisV a) t i j.
Proof. intros Hi Hj. destruct a; cell4 i Hi; cell4 j Hj; cbn -[IZR Rplus Rminus Rmult Ropp sin cos]; ring. Qed.

(** ** The cells of rotate( angle, axis ) *)
Section Cell.
Context (u e d c s c' s' k' : R) (Hu : 0 < u <= / 1000000) (He : 0 <= e <= u / 1000) (Hd : 0 <= d <= / 100).
Context (Hc : Rabs c <= 1) (Hs : Rabs s <= 1) (Hc' : Rabs (c' - c) <= d) (Hs' : Rabs (s' - s) <= d).
Context (Hk : Rabs (k' - (1 - c')) <= u * Rabs (1 - c')).
Lemma k_err : Rabs (k' - (1 - c)) <= d + 21 / 10 * u /\ Rabs (1 - c) <= 2.
Proof.
  assert (C2 : Rabs (1 - c) <= 2) by (apply abs_le_inv in Hc; apply Rabs_le; lra). split; [|exact C2].
  assert (X : Rabs (1 - c') <= 2 + d).
  { apply (abs_of_err (1 - c') (1 - c)); [exact C2|]. replace (1 - c' - (1 - c)) with (- (c' - c)) by ring. rewrite Rabs_Ropp. exact Hc'. }
  replace (k' - (1 - c)) with ((k' - (1 - c')) + (- (c' - c))) by ring.
  assert (u * Rabs (1 - c') <= u * (21 / 10)) by (apply Rmult_le_compat_l; lra).
  eapply Rle_trans; [apply (tri _ _ (u * (21 / 10)) d)|lra]; [lra|]. rewrite Rabs_Ropp. exact Hc'.
Qed.
Lemma cell_diag x q p r : Rabs x <= 101 / 100 ->
  Rabs (q - x * x) <= u * Rabs (x * x) + e -> Rabs (p - k' * q) <= u * Rabs (k' * q) + e -> Rabs (r - (c' + p)) <= u * Rabs (c' + p) ->
  Rabs (r - (c + (1 - c) * (x * x))) <= 3 * d + 16 * u.
Proof.
  intros Hx Hq Hp Hr. destruct k_err as (K1 & K2).
  assert (XX : Rabs (x * x) <= 103 / 100) by (pose proof (prod_le x x _ _ Hx Hx); lra).
  assert (Q : Rabs (q - x * x) <= 11 / 10 * u) by (assert (u * Rabs (x * x) <= u * (103 / 100)) by (apply Rmult_le_compat_l; lra); lra).
  pose proof (prod_err u e (1 - c) (x * x) k' q p 2 (103 / 100) (d + 21 / 10 * u) (11 / 10 * u) ltac:(lra) K2 XX K1 Q Hp) as P.
  assert (UU : 0 <= u * u <= / 1000000 * u) by (split; [nra|apply Rmult_le_compat_r; lra]).
  assert (UD : 0 <= u * d <= / 100 * u) by (split; [nra|rewrite Rmult_comm; apply Rmult_le_compat_r; lra]).
  assert (UUU : 0 <= u * (u * u) <= / 1000000 * u) by (split; [apply Rmult_le_pos; lra|apply Rle_trans with (u * (/ 1000000 * u)); [apply Rmult_le_compat_l; lra|nra]]).
  assert (UUD : 0 <= u * (u * d) <= / 1000000 * u) by (split; [apply Rmult_le_pos; lra|apply Rle_trans with (u * (/ 100 * u)); [apply Rmult_le_compat_l; lra|nra]]).
  assert (P' : Rabs (p - (1 - c) * (x * x)) <= 11 / 10 * d + 8 * u) by nra.
  assert (PB : Rabs ((1 - c) * (x * x)) <= 206 / 100) by (pose proof (prod_le _ _ _ _ K2 XX); lra).
  pose proof (sum_err u c ((1 - c) * (x * x)) c' p r 1 (206 / 100) d (11 / 10 * d + 8 * u) ltac:(lra) Hc PB Hc' P' Hr) as R1. nra.
Qed.
Lemma cell_off x y z q p w r : Rabs x <= 101 / 100 -> Rabs y <= 101 / 100 -> Rabs z <= 101 / 100 ->
  Rabs (q - k' * x) <= u * Rabs (k' * x) + e -> Rabs (p - q * y) <= u * Rabs (q * y) + e -> Rabs (w - s' * z) <= u * Rabs (s' * z) + e ->
  (Rabs (r - (p + w)) <= u * Rabs (p + w) -> Rabs (r - ((1 - c) * x * y + s * z)) <= 3 * d + 16 * u) /\
  (Rabs (r - (p - w)) <= u * Rabs (p - w) -> Rabs (r - ((1 - c) * x * y - s * z)) <= 3 * d + 16 * u).
Proof.
  intros Hx Hy Hz Hq Hp Hw. destruct k_err as (K1 & K2).
  assert (UU : 0 <= u * u <= / 1000000 * u) by (split; [nra|apply Rmult_le_compat_r; lra]).
  assert (UD : 0 <= u * d <= / 100 * u) by (split; [nra|rewrite Rmult_comm; apply Rmult_le_compat_r; lra]).
  assert (Z0 : forall t : R, Rabs (t - t) <= 0) by (intros t; rewrite Rminus_diag_eq, Rabs_R0 by reflexivity; lra).
  pose proof (prod_err u e (1 - c) x k' x q 2 (101 / 100) (d + 21 / 10 * u) 0 ltac:(lra) K2 Hx K1 (Z0 x) Hq) as Q.
  assert (Q' : Rabs (q - (1 - c) * x) <= 102 / 100 * d + 43 / 10 * u) by nra.
  assert (QB : Rabs ((1 - c) * x) <= 202 / 100) by (pose proof (prod_le _ _ _ _ K2 Hx); lra).
  pose proof (prod_err u e ((1 - c) * x) y q y p (202 / 100) (101 / 100) (102 / 100 * d + 43 / 10 * u) 0 ltac:(lra) QB Hy Q' (Z0 y) Hp) as P.
  assert (P' : Rabs (p - (1 - c) * x * y) <= 11 / 10 * d + 7 * u) by nra.
  assert (PB : Rabs ((1 - c) * x * y) <= 205 / 100) by (pose proof (prod_le _ _ _ _ QB Hy); lra).
  pose proof (prod_err u e s z s' z w 1 (101 / 100) d 0 ltac:(lra) Hs Hz Hs' (Z0 z) Hw) as W.
  assert (W' : Rabs (w - s * z) <= 102 / 100 * d + 11 / 10 * u) by nra.
  assert (WB : Rabs (s * z) <= 101 / 100) by (pose proof (prod_le _ _ _ _ Hs Hz); lra).
  split; intros Hr.
  - pose proof (sum_err u _ _ p w r _ _ _ _ ltac:(lra) PB WB P' W' Hr) as R1. nra.
  - pose proof (diff_err u _ _ p w r _ _ _ _ ltac:(lra) PB WB P' W' Hr) as R1. nra.
Qed.
End Cell.

(** ** An axis that is almost a unit vector *)
Section Axis.
Context (x y z L ep : R) (LP : 99 / 100 <= L <= 101 / 100) (LL : L * L = x * x + y * y + z * z) (HL : Rabs (L - 1) <= ep) (E1 : ep <= / 100).
Lemma comp_bound : Rabs x <= L /\ Rabs y <= L /\ Rabs z <= L.
Proof.
  assert (Q : forall w, w * w <= L * L -> Rabs w <= L).
  { intros w H. apply Rsqr_incr_0_var; [|lra]. unfold Rsqr. rewrite <- Rabs_mult, Rabs_pos_eq by nra. exact H. }
  pose proof (Rle_0_sqr x). pose proof (Rle_0_sqr y). pose proof (Rle_0_sqr z). unfold Rsqr in *. repeat split; apply Q; lra.
Qed.
Lemma quot_bound w : Rabs w <= L -> Rabs (w / L) <= 1.
Proof.
  intros H. unfold Rdiv. rewrite Rabs_mult, Rabs_inv, (Rabs_pos_eq L) by lra. apply (Rmult_le_reg_r L); [lra|]. rewrite Rmult_assoc, Rinv_l by lra. lra.
Qed.
(** d a b +- s w against the same with a / L, b / L, w / L. *)
Lemma unit_err dd s a b w : Rabs dd <= 2 -> Rabs s <= 1 -> Rabs a <= L -> Rabs b <= L -> Rabs w <= L ->
  Rabs (dd * a * b + s * w - (dd * (a / L) * (b / L) + s * (w / L))) <= 6 * ep.
Proof.
  intros Hd Hs Ha Hb Hw. apply quot_bound in Ha, Hb, Hw.
  assert (EP : 0 <= ep) by (pose proof (Rabs_pos (L - 1)); lra).
  assert (L2 : Rabs (L * L - 1) <= 21 / 10 * ep).
  { replace (L * L - 1) with ((L - 1) * (L + 1)) by ring. eapply Rle_trans; [apply prod_le; [exact HL|apply Rle_refl]|]. rewrite Rabs_pos_eq by lra. nra. }
  replace (dd * a * b + s * w - (dd * (a / L) * (b / L) + s * (w / L))) with (dd * ((a / L) * (b / L)) * (L * L - 1) + s * (w / L) * (L - 1)) by (field; lra).
  pose proof (prod_le _ _ _ _ Ha Hb) as AB. pose proof (prod_le _ _ _ _ Hd AB) as DAB. pose proof (prod_le _ _ _ _ DAB L2) as T1.
  pose proof (prod_le _ _ _ _ Hs Hw) as SW. pose proof (prod_le _ _ _ _ SW HL) as T2.
  eapply Rle_trans; [apply tri; [exact T1|exact T2]|]. lra.
Qed.
Lemma rot_unit_err t i j : (i < 3)%nat -> (j < 3)%nat -> Rabs (rotF (x, y, z) t i j - rotF (x / L, y / L, z / L) t i j) <= 6 * ep.
Proof.
  intros Hi Hj. destruct comp_bound as (Bx & By & Bz).
  assert (D : Rabs (1 - cos t) <= 2) by (pose proof (COS_bound t); apply Rabs_le; lra).
  assert (S1 : Rabs (sin t) <= 1) by (pose proof (SIN_bound t); apply Rabs_le; lra).
  assert (S2 : Rabs (- sin t) <= 1) by (rewrite Rabs_Ropp; exact S1).
  assert (S0 : Rabs 0 <= 1) by (rewrite Rabs_R0; lra).
  destruct i as [|[|[|i]]]; [| | |lia]; (destruct j as [|[|[|j]]]; [| | |lia]); cbn [rotF nth].
  - eapply Rle_trans; [|apply (unit_err _ _ x x x D S0); assumption]. right. f_equal. ring.
  - eapply Rle_trans; [|apply (unit_err _ _ x y z D S2); assumption]. right. f_equal. ring.
  - eapply Rle_trans; [|apply (unit_err _ _ x z y D S1); assumption]. right. f_equal; ring.
  - eapply Rle_trans; [|apply (unit_err _ _ x y z D S1); assumption]. right. f_equal; ring.
  - eapply Rle_trans; [|apply (unit_err _ _ y y y D S0); assumption]. right. f_equal. ring.
  - eapply Rle_trans; [|apply (unit_err _ _ y z x D S2); assumption]. right. f_equal. ring.
  - eapply Rle_trans; [|apply (unit_err _ _ x z y D S2); assumption]. right. f_equal. ring.
  - eapply Rle_trans; [|apply (unit_err _ _ y z x D S1); assumption]. right. f_equal; ring.
  - eapply Rle_trans; [|apply (unit_err _ _ z z z D S0); assumption]. right. f_equal. ring.
Qed.
End Axis.
