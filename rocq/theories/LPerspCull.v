(** Half-spaces through the eye whose normals are perturbed. *)
From Coq Require Import Reals Lra List.
From Flocq Require Import Core.Core.
From Verif Require Import Spec Spec4 LVectorR LVecProps2 LNormal.
Import ListNotations.
Local Open Scope R_scope.

(** Signed distance to a half-space. *)
Definition sdR (h : hs) (p : V3) : R := hval h p / len3R (fst h).
Lemma sdR_tilt (e : R) (v' v q : V3) : 0 < len3R v' -> 0 < len3R v -> len3R (sub3 v' v) <= e * len3R v ->
  Rabs (sdR (v', 0) q - sdR (v, 0) q) <= 2 * e * len3R q.
Proof.
  intros P' P HE. unfold sdR, hval. cbn [fst snd]. set (L := len3R v) in *. set (L' := len3R v') in *. rewrite !Rplus_0_r.
  replace (dot3 v' q / L' - dot3 v q / L) with (dot3 (sub3 v' v) q * / L + dot3 v' q * / L' * ((L - L') * / L)).
  2:{ replace (dot3 (sub3 v' v) q) with (dot3 v' q - dot3 v q) by (destruct v' as [[a b] c], v as [[a' b'] c'], q as [[x y] z]; cbn; ring). field. lra. }
  assert (Q0 := len3_nonneg q). assert (D0 := len3_nonneg (sub3 v' v)).
  assert (LL : Rabs (L - L') <= e * L).
  { apply Rle_trans with (len3R (sub3 v' v)); [|exact HE].
    assert (A1 : L' <= len3R (sub3 v' v) + L).
    { unfold L', L. replace v' with (add3 (sub3 v' v) v) at 1 by (destruct v' as [[a b] c], v as [[a' b'] c']; cbn; f_equal; [f_equal|]; ring). apply len3_triangle. }
    assert (A2 : L <= len3R (sub3 v' v) + L').
    { replace (len3R (sub3 v' v)) with (len3R (sub3 v v')) by (unfold len3R; f_equal; destruct v' as [[a b] c], v as [[a' b'] c']; cbn; ring).
      unfold L', L. replace v with (add3 (sub3 v v') v') at 1 by (destruct v' as [[a b] c], v as [[a' b'] c']; cbn; f_equal; [f_equal|]; ring). apply len3_triangle. }
    apply Rabs_le. lra. }
  assert (I : 0 < / L) by (apply Rinv_0_lt_compat, P). assert (I' : 0 < / L') by (apply Rinv_0_lt_compat, P').
  assert (B1 : Rabs (dot3 (sub3 v' v) q * / L) <= e * len3R q).
  { rewrite Rabs_mult, (Rabs_pos_eq (/ L)) by lra. apply (Rmult_le_reg_r L); [exact P|]. rewrite Rmult_assoc, Rinv_l, Rmult_1_r by lra.
    eapply Rle_trans; [apply len3_cs|]. apply Rle_trans with (e * L * len3R q); [apply Rmult_le_compat_r; assumption|apply Req_le; ring]. }
  assert (B2 : Rabs (dot3 v' q * / L') <= len3R q).
  { rewrite Rabs_mult, (Rabs_pos_eq (/ L')) by lra. apply (Rmult_le_reg_r L'); [exact P'|]. rewrite Rmult_assoc, Rinv_l, Rmult_1_r by lra.
    eapply Rle_trans; [apply len3_cs|]. apply Req_le. apply Rmult_comm. }
  assert (B3 : Rabs ((L - L') * / L) <= e).
  { rewrite Rabs_mult, (Rabs_pos_eq (/ L)) by lra. apply (Rmult_le_reg_r L); [exact P|]. rewrite Rmult_assoc, Rinv_l, Rmult_1_r by lra. exact LL. }
  eapply Rle_trans; [apply Rabs_triang|]. rewrite (Rabs_mult (dot3 v' q * / L')).
  assert (Rabs (dot3 v' q * / L') * Rabs ((L - L') * / L) <= len3R q * e) by (apply Rmult_le_compat; try apply Rabs_pos; assumption). lra.
Qed.
(** The four side planes of a frustum. *)
Lemma side_tilt (e n l' l : R) (q : V3) : 0 <= e -> 0 < n -> Rabs (l' - l) <= e * Rabs l ->
  Rabs (sdR ((n, 0, l'), 0) q - sdR ((n, 0, l), 0) q) <= 2 * e * len3R q /\
  Rabs (sdR ((- n, 0, - l'), 0) q - sdR ((- n, 0, - l), 0) q) <= 2 * e * len3R q /\
  Rabs (sdR ((0, n, l'), 0) q - sdR ((0, n, l), 0) q) <= 2 * e * len3R q /\
  Rabs (sdR ((0, - n, - l'), 0) q - sdR ((0, - n, - l), 0) q) <= 2 * e * len3R q.
Proof.
  intros He Hn HE.
  assert (NN := Rmult_lt_0_compat n n Hn Hn).
  assert (P : forall x, 0 < sqrt (n * n + x * x)).
  { intros x. apply sqrt_lt_R0. pose proof (Rle_0_sqr x) as Sx. unfold Rsqr in Sx. lra. }
  assert (G : Rabs (l' - l) <= e * sqrt (n * n + l * l)).
  { eapply Rle_trans; [exact HE|]. apply Rmult_le_compat_l; [exact He|]. rewrite <- sqrt_Rsqr_abs. apply sqrt_le_1_alt. unfold Rsqr. lra. }
  assert (K : forall v' v : V3, dot3 v' v' = n * n + l' * l' -> dot3 v v = n * n + l * l -> dot3 (sub3 v' v) (sub3 v' v) = (l' - l) * (l' - l) ->
    Rabs (sdR (v', 0) q - sdR (v, 0) q) <= 2 * e * len3R q).
  { intros v' v H1 H2 H3. apply sdR_tilt; unfold len3R; rewrite ?H1, ?H2, ?H3; [apply P|apply P|]. change ((l' - l) * (l' - l)) with (Rsqr (l' - l)). rewrite sqrt_Rsqr_abs. exact G. }
  split; [|split; [|split]]; apply K; cbn; ring.
Qed.
(** Verdicts against a list of half-spaces with margins, carried over to the
    unperturbed half-spaces. *)
Definition tilted (e : R) (p' p : hs * R) : Prop := snd p' <= 2 * snd p /\ forall q, Rabs (sdR (fst p') q - sdR (fst p) q) <= 2 * e * len3R q.
Lemma tilt_l (e : R) F' F : Forall2 (tilted e) F' F -> forall H m, In (H, m) F' -> exists H0 m0, In (H0, m0) F /\ tilted e (H, m) (H0, m0).
Proof.
  induction 1 as [|p' p F' F T FA IH]; intros H m HI; [destruct HI|]. destruct HI as [->|HI]; [destruct p as [H0 m0]; exists H0, m0; split; [left; reflexivity|exact T]|].
  destruct (IH H m HI) as (H0 & m0 & I & T0). exists H0, m0. split; [right; exact I|exact T0].
Qed.
Lemma tilt_r (e : R) F' F : Forall2 (tilted e) F' F -> forall H m, In (H, m) F -> exists H0 m0, In (H0, m0) F' /\ tilted e (H0, m0) (H, m).
Proof.
  induction 1 as [|p' p F' F T FA IH]; intros H m HI; [destruct HI|]. destruct HI as [->|HI]; [destruct p' as [H0 m0]; exists H0, m0; split; [left; reflexivity|exact T]|].
  destruct (IH H m HI) as (H0 & m0 & I & T0). exists H0, m0. split; [right; exact I|exact T0].
Qed.
Section Carry.
Context (e : R) (F' F : list (hs * R)) (FA : Forall2 (tilted e) F' F).
Definition wid (m : R) (q : V3) : R := 2 * m + 2 * e * len3R q.
Lemma carry_none (B : V3 -> Prop) : (exists H m, In (H, m) F' /\ forall q, B q -> sdR H q <= m) -> exists H m, In (H, m) F /\ forall q, B q -> sdR H q <= wid m q.
Proof.
  intros (H & m & I & G). destruct (tilt_l e F' F FA H m I) as (H0 & m0 & I0 & T1 & T2). exists H0, m0. split; [exact I0|]. intros q Bq. specialize (G q Bq). specialize (T2 q). cbn [fst snd] in *.
  apply Rabs_le_inv in T2. unfold wid. lra.
Qed.
Lemma carry_full (B : V3 -> Prop) : (forall H m q, In (H, m) F' -> B q -> - m <= sdR H q) -> forall H m q, In (H, m) F -> B q -> - wid m q <= sdR H q.
Proof.
  intros G H m q I Bq. destruct (tilt_r e F' F FA H m I) as (H0 & m0 & I0 & T1 & T2). specialize (G H0 m0 q I0 Bq). specialize (T2 q). cbn [fst snd] in *. apply Rabs_le_inv in T2. unfold wid. lra.
Qed.
Lemma carry_above (q : V3) (k : R) : (forall H m, In (H, m) F -> k + wid m q <= sdR H q) -> forall H m, In (H, m) F' -> k + m <= sdR H q.
Proof.
  intros G H m I. destruct (tilt_l e F' F FA H m I) as (H0 & m0 & I0 & T1 & T2). specialize (G H0 m0 I0). specialize (T2 q). cbn [fst snd] in *. apply Rabs_le_inv in T2. unfold wid in G. lra.
Qed.
Lemma carry_above_lt (q : V3) : (forall H m, In (H, m) F -> wid m q < sdR H q) -> forall H m, In (H, m) F' -> m < sdR H q.
Proof.
  intros G H m I. destruct (tilt_l e F' F FA H m I) as (H0 & m0 & I0 & T1 & T2). specialize (G H0 m0 I0). specialize (T2 q). cbn [fst snd] in *. apply Rabs_le_inv in T2. unfold wid in G. lra.
Qed.
Lemma carry_below (q : V3) (k : R) : (exists H m, In (H, m) F /\ sdR H q <= - k - wid m q) -> exists H m, In (H, m) F' /\ sdR H q <= - k - m.
Proof.
  intros (H & m & I & G). destruct (tilt_r e F' F FA H m I) as (H0 & m0 & I0 & T1 & T2). exists H0, m0. split; [exact I0|]. specialize (T2 q). cbn [fst snd] in *. apply Rabs_le_inv in T2. unfold wid in G. lra.
Qed.
Lemma carry_below_lt (B : V3 -> Prop) : (exists H m, In (H, m) F /\ forall q, B q -> sdR H q < - wid m q) -> exists H m, In (H, m) F' /\ forall q, B q -> sdR H q < - m.
Proof.
  intros (H & m & I & G). destruct (tilt_r e F' F FA H m I) as (H0 & m0 & I0 & T1 & T2). exists H0, m0. split; [exact I0|]. intros q Bq. specialize (G q Bq). specialize (T2 q). cbn [fst snd] in *. apply Rabs_le_inv in T2. unfold wid in G. lra.
Qed.
End Carry.
