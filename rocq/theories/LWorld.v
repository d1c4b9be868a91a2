(** Half-spaces whose numbers are perturbed (C218). *)
From Coq Require Import Reals Lra List.
From Verif Require Import Spec Spec4 Spec16 LVectorR LVecProps2 LNormal.
Import ListNotations.
Local Open Scope R_scope.

Definition trm (h : hs) (p : V3) : R := let '((a, b, c), d) := h in let '(x, y, z) := p in Rabs (a * x) + Rabs (b * y) + Rabs (c * z) + Rabs d.
Definition le3 (p r : V3) : Prop := let '(x, y, z) := p in let '(x', y', z') := r in Rabs x <= Rabs x' /\ Rabs y <= Rabs y' /\ Rabs z <= Rabs z'.
Lemma le3_refl p : le3 p p. Proof. destruct p as [[x y] z]. cbn. lra. Qed.
(** h' is h up to g times the sums s and up to t. *)
Definition pert (g t : R) (h' h s : hs) : Prop :=
  let '((a, b, c), d) := h in let '((a', b', c'), d') := h' in let '((p, q, r), w) := s in
  Rabs a <= p /\ Rabs b <= q /\ Rabs c <= r /\ Rabs d <= w /\
  Rabs (a' - a) <= g * p + t /\ Rabs (b' - b) <= g * q + t /\ Rabs (c' - c) <= g * r + t /\ Rabs (d' - d) <= g * w + t.
Lemma len_le_norm1 p : len3R p <= norm1 p.
Proof.
  destruct p as [[x y] z]. unfold len3R, norm1, dot3. pose proof (Rabs_pos x) as X. pose proof (Rabs_pos y) as Y. pose proof (Rabs_pos z) as Z.
  rewrite <- (sqrt_square (Rabs x + Rabs y + Rabs z)) by lra. apply sqrt_le_1_alt.
  assert (E : forall a, a * a = Rabs a * Rabs a) by (intros a; rewrite <- Rabs_mult, Rabs_pos_eq; [reflexivity|apply Rle_0_sqr]).
  rewrite (E x), (E y), (E z). generalize dependent (Rabs x). generalize dependent (Rabs y). generalize dependent (Rabs z). intros a HA b HB c HC. clear E.
  assert (0 <= a * b) by (apply Rmult_le_pos; assumption). assert (0 <= a * c) by (apply Rmult_le_pos; assumption). assert (0 <= b * c) by (apply Rmult_le_pos; assumption). lra.
Qed.
Lemma mul_le a x b y : Rabs a <= b -> Rabs x <= y -> Rabs (a * x) <= b * y.
Proof. intros H1 H2. rewrite Rabs_mult. apply Rmult_le_compat; try apply Rabs_pos; assumption. Qed.
Lemma wterms_pos g t h' h s (HP : pert g t h' h s) r : 0 <= wterms s r.
Proof.
  destruct h as [[[a b] c] d], h' as [[[a' b'] c'] d'], s as [[[p q] e] w], r as [[x y] z]. cbn in HP |- *. unfold hval; cbn [fst snd dot3].
  destruct HP as (A & B & C & D & A' & B' & C' & D'). pose proof (Rabs_pos a). pose proof (Rabs_pos b). pose proof (Rabs_pos c). pose proof (Rabs_pos d).
  assert (0 <= p * Rabs x) by (apply Rmult_le_pos; [lra|apply Rabs_pos]). assert (0 <= q * Rabs y) by (apply Rmult_le_pos; [lra|apply Rabs_pos]).
  assert (0 <= e * Rabs z) by (apply Rmult_le_pos; [lra|apply Rabs_pos]). lra.
Qed.
Lemma wterms_mono g t h' h s (HP : pert g t h' h s) p r : le3 p r -> wterms s p <= wterms s r.
Proof.
  destruct h as [[[a b] c] d], h' as [[[a' b'] c'] d'], s as [[[k q] e] w], p as [[x y] z], r as [[x' y'] z']. cbn in HP |- *. unfold hval; cbn [fst snd dot3]. intros (X & Y & Z).
  destruct HP as (A & B & C & D & A' & B' & C' & D'). pose proof (Rabs_pos a). pose proof (Rabs_pos b). pose proof (Rabs_pos c).
  assert (k * Rabs x <= k * Rabs x') by (apply Rmult_le_compat_l; lra). assert (q * Rabs y <= q * Rabs y') by (apply Rmult_le_compat_l; lra).
  assert (e * Rabs z <= e * Rabs z') by (apply Rmult_le_compat_l; lra). lra.
Qed.
Lemma pert_normal g t h' h s (HP : pert g t h' h s) : len3R (sub3 (fst h') (fst h)) <= g * norm1 (fst s) + 3 * t /\ 0 <= norm1 (fst s).
Proof.
  split; [|destruct (fst s) as [[x y] z]; cbn; pose proof (Rabs_pos x); pose proof (Rabs_pos y); pose proof (Rabs_pos z); lra].
  eapply Rle_trans; [apply len_le_norm1|].
  destruct h as [[[a b] c] d], h' as [[[a' b'] c'] d'], s as [[[k q] e] w]. cbn in HP |- *. unfold hval; cbn [fst snd dot3].
  destruct HP as (A & B & C & D & A' & B' & C' & D'). pose proof (Rabs_pos a). pose proof (Rabs_pos b). pose proof (Rabs_pos c).
  rewrite (Rabs_pos_eq k), (Rabs_pos_eq q), (Rabs_pos_eq e) by lra. lra.
Qed.
Lemma pert_val g t h' h s (HP : pert g t h' h s) q : Rabs (hval h' q - hval h q) <= g * wterms s q + t * (norm1 q + 1).
Proof.
  destruct h as [[[a b] c] d], h' as [[[a' b'] c'] d'], s as [[[k p] e] w], q as [[x y] z]. cbn in HP |- *. unfold hval; cbn [fst snd dot3].
  destruct HP as (_ & _ & _ & _ & A & B & C & D).
  replace (a' * x + b' * y + c' * z + d' - (a * x + b * y + c * z + d)) with ((a' - a) * x + (b' - b) * y + (c' - c) * z + (d' - d)) by ring.
  pose proof (mul_le _ _ _ _ A (Rle_refl (Rabs x))). pose proof (mul_le _ _ _ _ B (Rle_refl (Rabs y))). pose proof (mul_le _ _ _ _ C (Rle_refl (Rabs z))).
  eapply Rle_trans; [apply Rabs_triang|]. pose proof (Rabs_triang ((a' - a) * x + (b' - b) * y) ((c' - c) * z)). pose proof (Rabs_triang ((a' - a) * x) ((b' - b) * y)). lra.
Qed.
Lemma val_terms g t h' h s (HP : pert g t h' h s) q : Rabs (hval h q) <= wterms s q.
Proof.
  destruct h as [[[a b] c] d], h' as [[[a' b'] c'] d'], s as [[[k p] e] w], q as [[x y] z]. cbn in HP |- *. unfold hval; cbn [fst snd dot3].
  destruct HP as (A & B & C & D & _).
  pose proof (mul_le _ _ _ _ A (Rle_refl (Rabs x))). pose proof (mul_le _ _ _ _ B (Rle_refl (Rabs y))). pose proof (mul_le _ _ _ _ C (Rle_refl (Rabs z))).
  eapply Rle_trans; [apply Rabs_triang|]. pose proof (Rabs_triang (a * x + b * y) (c * z)). pose proof (Rabs_triang (a * x) (b * y)). lra.
Qed.
Lemma pert_trm g t h' h s (Hg : 0 <= g) (HP : pert g t h' h s) q : trm h' q <= (1 + g) * wterms s q + t * (norm1 q + 1).
Proof.
  destruct h as [[[a b] c] d], h' as [[[a' b'] c'] d'], s as [[[k p] e] w], q as [[x y] z]. cbn in HP |- *. unfold hval; cbn [fst snd dot3].
  destruct HP as (A & B & C & D & A' & B' & C' & D').
  assert (K : forall m m' n, Rabs m <= n -> Rabs (m' - m) <= g * n + t -> Rabs m' <= (1 + g) * n + t).
  { intros m m' n H1 H2. replace m' with (m + (m' - m)) by ring. eapply Rle_trans; [apply Rabs_triang|]. lra. }
  pose proof (mul_le _ _ _ _ (K _ _ _ A A') (Rle_refl (Rabs x))). pose proof (mul_le _ _ _ _ (K _ _ _ B B') (Rle_refl (Rabs y))). pose proof (mul_le _ _ _ _ (K _ _ _ C C') (Rle_refl (Rabs z))).
  pose proof (K _ _ _ D D'). lra.
Qed.
Lemma norm1_mono p r : le3 p r -> norm1 p <= norm1 r.
Proof. destruct p as [[x y] z], r as [[x' y'] z']. cbn. lra. Qed.

Section Margin.
Context (u t : R) (Hu : 0 < u <= / 100000) (Ht : 0 <= t) (h' h s : hs) (HP : pert (5 * u) t h' h s).
Local Notation L := (len3R (fst h)).
Local Notation L' := (len3R (fst h')).
Context (L0 : 0 < L) (HC : 5 * u * norm1 (fst s) + 3 * t <= / 1000 * L) (HT : t <= u * L).
Lemma len_close : 999 / 1000 * L <= L' /\ Rabs (L - L') <= 5 * u * norm1 (fst s) + 3 * t.
Proof.
  destruct (pert_normal (5 * u) t h' h s HP) as (D & _).
  pose proof (len_sub_ge (fst h') (fst h)) as G1. pose proof (len_sub_ge (fst h) (fst h')) as G2. rewrite (len_sub_sym (fst h)) in G2.
  split; [lra|]. apply Rabs_le. lra.
Qed.
Lemma world_diff q r : le3 q r -> Rabs (hval h' q / L' - hval h q / L) <= 102 / 100 * (u * (8 + 5 * (norm1 (fst s) / L)) * (wterms s r / L)) + 102 / 100 * (t / L * (norm1 r + 1)).
Proof.
  intros Hq. destruct len_close as (L1 & L2). pose proof (pert_val (5 * u) t h' h s HP q) as V. pose proof (val_terms (5 * u) t h' h s HP q) as W.
  pose proof (wterms_mono (5 * u) t h' h s HP q r Hq) as TM. pose proof (norm1_mono q r Hq) as NM.
  pose proof (wterms_pos (5 * u) t h' h s HP q) as T0. destruct (pert_normal (5 * u) t h' h s HP) as (_ & N0).
  set (T := wterms s r) in *. set (N := norm1 (fst s)) in *. set (M := norm1 r) in *. set (v := hval h q) in *. set (v' := hval h' q) in *.
  assert (M0 : 0 <= M) by (unfold M; clear; destruct r as [[x y] z]; cbn; pose proof (Rabs_pos x); pose proof (Rabs_pos y); pose proof (Rabs_pos z); lra).
  assert (V1 : Rabs (v' - v) <= 5 * u * T + t * (M + 1)).
  { eapply Rle_trans; [exact V|]. apply Rplus_le_compat; apply Rmult_le_compat_l; lra. }
  assert (W1 : Rabs v <= T) by lra.
  assert (LP : 0 < L') by lra.
  assert (I1 : 0 < / L) by (apply Rinv_0_lt_compat; exact L0).
  assert (I2 : 0 < / L' <= 102 / 100 * / L).
  { split; [apply Rinv_0_lt_compat; exact LP|]. apply (Rmult_le_reg_r L'); [exact LP|]. rewrite Rinv_l by lra.
    apply Rle_trans with (102 / 100 * / L * (999 / 1000 * L)); [|apply Rmult_le_compat_l; lra].
    replace (102 / 100 * / L * (999 / 1000 * L)) with (102 / 100 * (999 / 1000)) by (field; lra). lra. }
  replace (v' / L' - v / L) with ((v' - v) * / L' + v * (L - L') * (/ L' * / L)) by (field; lra).
  set (a := 5 * u * T + t * (M + 1)) in *. set (b := 5 * u * N + 3 * t) in *.
  assert (A0 : 0 <= a) by (eapply Rle_trans; [apply Rabs_pos|exact V1]). assert (B0 : 0 <= b) by (eapply Rle_trans; [apply Rabs_pos|exact L2]).
  assert (X1 : Rabs ((v' - v) * / L') <= a * (102 / 100 * / L)).
  { rewrite Rabs_mult, (Rabs_pos_eq (/ L')) by lra. apply Rmult_le_compat; try apply Rabs_pos; try lra. }
  assert (X2 : Rabs (v * (L - L') * (/ L' * / L)) <= T * b * (102 / 100 * / L * / L)).
  { rewrite !Rabs_mult, (Rabs_pos_eq (/ L')), (Rabs_pos_eq (/ L)) by lra. apply Rmult_le_compat.
    - apply Rmult_le_pos; apply Rabs_pos.
    - apply Rmult_le_pos; lra.
    - apply Rmult_le_compat; try apply Rabs_pos; assumption.
    - apply Rmult_le_compat_r; lra. }
  eapply Rle_trans; [apply Rabs_triang|]. eapply Rle_trans; [apply Rplus_le_compat; [exact X1|exact X2]|]. unfold a, b.
  assert (TL : 0 <= T * / L) by (apply Rmult_le_pos; lra).
  assert (tL : t * / L <= u) by (apply (Rmult_le_reg_r L); [exact L0|]; rewrite Rmult_assoc, Rinv_l by lra; lra).
  assert (X3 : T * / L * (t * / L) <= T * / L * u) by (apply Rmult_le_compat_l; assumption).
  unfold Rdiv.
  replace ((5 * u * T + t * (M + 1)) * (102 * / 100 * / L) + T * (5 * u * N + 3 * t) * (102 * / 100 * / L * / L)) with
    (102 * / 100 * (u * (5 + 5 * (N * / L)) * (T * / L)) + 102 * / 100 * (t * / L * (M + 1)) + 102 * / 100 * (3 * (T * / L * (t * / L)))) by ring.
  replace (102 * / 100 * (u * (8 + 5 * (N * / L)) * (T * / L))) with (102 * / 100 * (u * (5 + 5 * (N * / L)) * (T * / L)) + 102 * / 100 * (3 * (T * / L * u))) by ring. lra.
Qed.
Lemma world_total q c r : le3 q r -> le3 c r ->
  26 * u * (trm h' c / L') + Rabs (hval h' q / L' - hval h q / L) <= u * (40 + 6 * (norm1 (fst s) / L)) * (wterms s r / L) + 2 * (t / L * (norm1 r + 1)).
Proof.
  intros Hq Hc. pose proof (world_diff q r Hq) as D. destruct len_close as (L1 & _).
  pose proof (pert_trm (5 * u) t h' h s ltac:(lra) HP c) as TR. pose proof (wterms_mono (5 * u) t h' h s HP c r Hc) as TM. pose proof (norm1_mono c r Hc) as NM.
  pose proof (wterms_pos (5 * u) t h' h s HP r) as T0. destruct (pert_normal (5 * u) t h' h s HP) as (_ & N0).
  set (T := wterms s r) in *. set (N := norm1 (fst s)) in *. set (M := norm1 r) in *.
  assert (M0 : 0 <= M) by (unfold M; clear; destruct r as [[x y] z]; cbn; pose proof (Rabs_pos x); pose proof (Rabs_pos y); pose proof (Rabs_pos z); lra).
  assert (LP : 0 < L') by lra. assert (I1 : 0 < / L) by (apply Rinv_0_lt_compat; exact L0).
  assert (I2 : 0 < / L' <= 102 / 100 * / L).
  { split; [apply Rinv_0_lt_compat; exact LP|]. apply (Rmult_le_reg_r L'); [exact LP|]. rewrite Rinv_l by lra.
    apply Rle_trans with (102 / 100 * / L * (999 / 1000 * L)); [|apply Rmult_le_compat_l; lra].
    replace (102 / 100 * / L * (999 / 1000 * L)) with (102 / 100 * (999 / 1000)) by (field; lra). lra. }
  assert (U1 : 0 <= trm h' c) by (destruct h' as [[[x y] z] w], c as [[c0 c1] c2]; cbn; pose proof (Rabs_pos (x * c0)); pose proof (Rabs_pos (y * c1)); pose proof (Rabs_pos (z * c2)); pose proof (Rabs_pos w); lra).
  assert (U2 : trm h' c <= (1 + 5 * u) * T + t * (M + 1)).
  { eapply Rle_trans; [exact TR|]. apply Rplus_le_compat; apply Rmult_le_compat_l; lra. }
  assert (TL : 0 <= T * / L) by (apply Rmult_le_pos; lra).
  assert (tM : 0 <= t * / L * (M + 1)) by (apply Rmult_le_pos; [apply Rmult_le_pos|]; lra).
  assert (U3 : trm h' c / L' <= 102 / 100 * ((1 + 5 * u) * (T * / L) + t * / L * (M + 1))).
  { unfold Rdiv. apply Rle_trans with (((1 + 5 * u) * T + t * (M + 1)) * (102 / 100 * / L)); [apply Rmult_le_compat; lra|]. right. field. lra. }
  assert (U4 : 26 * u * (trm h' c / L') <= 26 * u * (102 / 100 * ((1 + 5 * u) * (T * / L) + t * / L * (M + 1)))) by (apply Rmult_le_compat_l; lra).
  assert (U5 : 5 * u * (u * (T * / L)) <= / 1000 * (u * (T * / L))) by (apply Rmult_le_compat_r; [apply Rmult_le_pos; lra|lra]).
  assert (U6 : u * (t * / L * (M + 1)) <= / 100000 * (t * / L * (M + 1))) by (apply Rmult_le_compat_r; lra).
  assert (NL : 0 <= N * / L) by (apply Rmult_le_pos; lra).
  assert (U7 : 0 <= u * (N * / L * (T * / L))) by (apply Rmult_le_pos; [lra|apply Rmult_le_pos; assumption]).
  assert (U8 : 0 <= u * (T * / L)) by (apply Rmult_le_pos; lra).
  unfold Rdiv in *.
  replace (26 * u * (102 * / 100 * ((1 + 5 * u) * (T * / L) + t * / L * (M + 1)))) with (26 * (102 * / 100) * (u * (T * / L)) + 26 * (102 * / 100) * (5 * u * (u * (T * / L))) + 26 * (102 * / 100) * (u * (t * / L * (M + 1)))) in U4 by ring.
  replace (102 * / 100 * (u * (8 + 5 * (N * / L)) * (T * / L))) with (102 * / 100 * 8 * (u * (T * / L)) + 102 * / 100 * 5 * (u * (N * / L * (T * / L)))) in D by ring.
  replace (u * (40 + 6 * (N * / L)) * (T * / L)) with (40 * (u * (T * / L)) + 6 * (u * (N * / L * (T * / L)))) by ring. lra.
Qed.
End Margin.
