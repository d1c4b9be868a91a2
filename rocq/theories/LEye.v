(** Faces of a product whose second factor is perturbed (C222-C223). *)
From Coq Require Import Reals Lra Lia List.
From Verif Require Import Spec Spec4 Spec11 Spec14 Spec16 Spec17 Spec18 LVectorR LVecProps2 LNormal LSum LWorld LMat4 PFloat2 PQrF PMatrix6 PMoveF LEdit.
Local Notation frobR := Spec14.frobR.
Import ListNotations.
Local Open Scope R_scope.

Lemma entry_frob A i j : (i < 4)%nat -> (j < 4)%nat -> Rabs (A i j) <= frobR 4 A.
Proof.
  intros Hi Hj. unfold frobR. rewrite <- (sqrt_Rsqr_abs (A i j)). apply sqrt_le_1_alt. unfold Rsqr.
  assert (Q : forall a, 0 <= a * a) by (intros a; exact (Rle_0_sqr a)).
  pose proof (Q (A 0 0)%nat). pose proof (Q (A 0 1)%nat). pose proof (Q (A 0 2)%nat). pose proof (Q (A 0 3)%nat).
  pose proof (Q (A 1 0)%nat). pose proof (Q (A 1 1)%nat). pose proof (Q (A 1 2)%nat). pose proof (Q (A 1 3)%nat).
  pose proof (Q (A 2 0)%nat). pose proof (Q (A 2 1)%nat). pose proof (Q (A 2 2)%nat). pose proof (Q (A 2 3)%nat).
  pose proof (Q (A 3 0)%nat). pose proof (Q (A 3 1)%nat). pose proof (Q (A 3 2)%nat). pose proof (Q (A 3 3)%nat). clear Q.
  destruct i as [|[|[|[|i]]]]; try lia; destruct j as [|[|[|[|j]]]]; try lia; cbn [rsum]; lra.
Qed.
Lemma frob_nonneg A : 0 <= frobR 4 A. Proof. apply sqrt_pos. Qed.
Lemma frob_absM A : frobR 4 (absM A) = frobR 4 A. Proof. exact (frob_abs A). Qed.
Lemma frob_tri A B : frobR 4 A <= frobR 4 B + frobR 4 (fun i j => A i j - B i j).
Proof. rewrite (frob_ext A (fun i j => B i j + (A i j - B i j))) by (intros; ring). apply frob_triangle. Qed.
Lemma mmul_sub P V X i j : mmulR 4 P V i j - mmulR 4 P X i j = mmulR 4 P (fun i j => V i j - X i j) i j.
Proof. unfold mmulR. cbn [rsum]. ring. Qed.

Section Eye.
Context (P V X : nat -> nat -> R) (B e u t : R) (HX : frobR 4 X <= B) (HV : frobR 4 (fun i j => V i j - X i j) <= e * B) (He : 0 <= e <= 1) (Hu : 0 < u) (Ht : 0 <= t).
Local Notation p := (frobR 4 P).
Context (s : R) (k : nat) (Hs : s = 1 \/ s = -1) (Hk : (k < 4)%nat).
Local Notation h' := (face (mmulR 4 P V) s k).
Local Notation h := (face (mmulR 4 P X) s k).
Local Notation Sm := (face (mmulR 4 (absM P) (absM V)) 1 k).
Local Notation L := (len3R (fst h)).
Local Notation L' := (len3R (fst h')).
Local Notation rho := (blowup p B h).
Context (HL : 0 < L) (HR : 200 * (e * rho) <= 1).

Lemma B_pos : 0 <= B. Proof. pose proof (frob_nonneg X). lra. Qed.
Lemma s_abs x : Rabs (s * x) = Rabs x.
Proof. destruct Hs as [-> | ->]; [rewrite Rmult_1_l; reflexivity|]. replace (-1 * x) with (- x) by ring. apply Rabs_Ropp. Qed.
Lemma V_le : frobR 4 V <= 2 * B.
Proof. pose proof (frob_tri V X). pose proof B_pos. assert (e * B <= 1 * B) by (apply Rmult_le_compat_r; lra). lra. Qed.
Lemma cell_diff j : (j < 4)%nat -> Rabs (mmulR 4 P V 3 j + s * mmulR 4 P V k j - (mmulR 4 P X 3 j + s * mmulR 4 P X k j)) <= 2 * (e * (p * B)).
Proof.
  intros Hj. replace (mmulR 4 P V 3 j + s * mmulR 4 P V k j - (mmulR 4 P X 3 j + s * mmulR 4 P X k j)) with
    ((mmulR 4 P V 3%nat j - mmulR 4 P X 3%nat j) + s * (mmulR 4 P V k j - mmulR 4 P X k j)) by ring.
  eapply Rle_trans; [apply Rabs_triang|]. rewrite s_abs, !mmul_sub.
  set (D := fun i j => V i j - X i j) in *.
  assert (F : frobR 4 (mmulR 4 P D) <= e * (p * B)).
  { eapply Rle_trans; [apply frob_mul|]. replace (e * (p * B)) with (p * (e * B)) by ring. apply Rmult_le_compat_l; [apply frob_nonneg|exact HV]. }
  pose proof (entry_frob (mmulR 4 P D) 3 j ltac:(lia) Hj). pose proof (entry_frob (mmulR 4 P D) k j Hk Hj). lra.
Qed.
Lemma cell_X j : (j < 4)%nat -> Rabs (mmulR 4 P X 3 j + s * mmulR 4 P X k j) <= 2 * (p * B).
Proof.
  intros Hj. eapply Rle_trans; [apply Rabs_triang|]. rewrite s_abs.
  assert (F : frobR 4 (mmulR 4 P X) <= p * B).
  { eapply Rle_trans; [apply frob_mul|]. apply Rmult_le_compat_l; [apply frob_nonneg|exact HX]. }
  pose proof (entry_frob (mmulR 4 P X) 3 j ltac:(lia) Hj). pose proof (entry_frob (mmulR 4 P X) k j Hk Hj). lra.
Qed.
Lemma cell_S j : (j < 4)%nat -> Rabs (mmulR 4 (absM P) (absM V) 3 j + 1 * mmulR 4 (absM P) (absM V) k j) <= 4 * (p * B).
Proof.
  intros Hj. rewrite Rmult_1_l. eapply Rle_trans; [apply Rabs_triang|].
  assert (F : frobR 4 (mmulR 4 (absM P) (absM V)) <= 2 * (p * B)).
  { eapply Rle_trans; [apply frob_mul|]. rewrite !frob_absM. replace (2 * (p * B)) with (p * (2 * B)) by ring. apply Rmult_le_compat_l; [apply frob_nonneg|exact V_le]. }
  pose proof (entry_frob (mmulR 4 (absM P) (absM V)) 3 j ltac:(lia) Hj). pose proof (entry_frob (mmulR 4 (absM P) (absM V)) k j Hk Hj). lra.
Qed.
(** A half-space with numbers of at most m. *)
Lemma hval_le a b c d m q : Rabs a <= m -> Rabs b <= m -> Rabs c <= m -> Rabs d <= m ->
  Rabs (hval ((a, b, c), d) q) <= m * (norm1 q + 1) /\ norm1 (a, b, c) <= 3 * m.
Proof.
  destruct q as [[x y] z]. intros H1 H2 H3 H4. unfold hval; cbn [fst snd dot3 norm1].
  pose proof (mul_le _ _ _ _ H1 (Rle_refl (Rabs x))). pose proof (mul_le _ _ _ _ H2 (Rle_refl (Rabs y))). pose proof (mul_le _ _ _ _ H3 (Rle_refl (Rabs z))).
  split; [|lra]. eapply Rle_trans; [apply Rabs_triang|]. pose proof (Rabs_triang (a * x + b * y) (c * z)). pose proof (Rabs_triang (a * x) (b * y)). lra.
Qed.
Lemma X_bounds q : Rabs (hval h q) <= 2 * (p * B) * (norm1 q + 1).
Proof. unfold face at 1. apply hval_le; apply cell_X; lia. Qed.
Lemma S_bounds q : wterms Sm q <= 4 * (p * B) * (norm1 q + 1) /\ norm1 (fst Sm) <= 12 * (p * B).
Proof.
  replace (12 * (p * B)) with (3 * (4 * (p * B))) by ring.
  assert (N : norm1 (let '(x, y, z) := q in (Rabs x, Rabs y, Rabs z)) = norm1 q) by (destruct q as [[x y] z]; cbn; rewrite !Rabs_Rabsolu; reflexivity).
  assert (W : wterms Sm q = hval Sm (let '(x, y, z) := q in (Rabs x, Rabs y, Rabs z))) by (destruct q as [[x y] z]; reflexivity).
  rewrite W, <- N. set (q' := let '(x, y, z) := q in (Rabs x, Rabs y, Rabs z)).
  assert (H : Rabs (hval Sm q') <= 4 * (p * B) * (norm1 q' + 1) /\ norm1 (fst Sm) <= 3 * (4 * (p * B))).
  { unfold face. apply hval_le; apply cell_S; lia. }
  destruct H as (H1 & H2). split; [|exact H2]. eapply Rle_trans; [apply Rle_abs|exact H1].
Qed.
Lemma D_bounds q : Rabs (hval h' q - hval h q) <= 2 * (e * (p * B)) * (norm1 q + 1) /\ len3R (sub3 (fst h') (fst h)) <= 6 * (e * (p * B)).
Proof.
  set (g := (sub3 (fst h') (fst h), snd h' - snd h) : hs).
  assert (E : hval h' q - hval h q = hval g q). { destruct q as [[x y] z]. unfold g, hval, face, sub3. cbn [fst snd dot3]. ring. }
  rewrite E. replace (6 * (e * (p * B))) with (3 * (2 * (e * (p * B)))) by ring.
  assert (H : Rabs (hval g q) <= 2 * (e * (p * B)) * (norm1 q + 1) /\ norm1 (fst g) <= 3 * (2 * (e * (p * B)))).
  { unfold g, face, sub3. cbn [fst snd]. apply hval_le; apply cell_diff; lia. }
  destruct H as (H1 & H2). split; [exact H1|]. eapply Rle_trans; [apply len_le_norm1|exact H2].
Qed.
Lemma rho_eq : p * B = rho * L. Proof. unfold blowup. field. lra. Qed.
Lemma rho_pos : 0 <= rho.
Proof. unfold blowup. apply Rmult_le_pos; [apply Rmult_le_pos; [apply frob_nonneg|exact B_pos]|]. left. apply Rinv_0_lt_compat, HL. Qed.
Lemma len_eye : 97 / 100 * L <= L' /\ Rabs (L - L') <= 6 * (e * rho) * L.
Proof.
  destruct (D_bounds zero3) as (_ & D). rewrite rho_eq in D.
  pose proof (len_sub_ge (fst h') (fst h)) as G1. pose proof (len_sub_ge (fst h) (fst h')) as G2. rewrite (len_sub_sym (fst h)) in G2.
  assert (200 * (e * rho) * L <= 1 * L) by (apply Rmult_le_compat_r; lra).
  split; [lra|]. apply Rabs_le. lra.
Qed.
(** What the product with the computed matrix says about the exact face. *)
Lemma eye_cond : wcond (h', Sm) <= 13 * rho.
Proof.
  destruct len_eye as (L1 & _). destruct (S_bounds zero3) as (_ & N). rewrite rho_eq in N. unfold wcond. cbn [fst snd]. pose proof rho_pos.
  assert (LP : 0 < L') by lra. apply (Rmult_le_reg_r L'); [exact LP|]. unfold Rdiv. rewrite Rmult_assoc, Rinv_l by lra.
  assert (rho * (97 / 100 * L) <= rho * L') by (apply Rmult_le_compat_l; lra). assert (0 <= rho * L) by (apply Rmult_le_pos; lra). lra.
Qed.
Lemma eye_margin q r : le3 q r -> forall r0, le3 r0 r ->
  Rabs (wdist (h', Sm) q - edist h q) + wmargin u t (h', Sm) r0 <= emargin u t e rho r.
Proof.
  intros Hq r0 Hr0. destruct len_eye as (L1 & L2). destruct (D_bounds q) as (D & _). destruct (S_bounds r0) as (W & _). pose proof (X_bounds q) as X1. pose proof eye_cond as C. pose proof rho_pos as R0.
  rewrite rho_eq in D, W, X1. pose proof (norm1_mono q r Hq) as M1. pose proof (norm1_mono r0 r Hr0) as M2.
  assert (N0 : 0 <= norm1 r0) by (destruct r0 as [[x y] z]; cbn; pose proof (Rabs_pos x); pose proof (Rabs_pos y); pose proof (Rabs_pos z); lra).
  assert (NQ : 0 <= norm1 q) by (destruct q as [[x y] z]; cbn; pose proof (Rabs_pos x); pose proof (Rabs_pos y); pose proof (Rabs_pos z); lra).
  assert (CP : 0 <= wcond (h', Sm)).
  { unfold wcond; cbn [fst snd]. apply Rmult_le_pos; [|left; apply Rinv_0_lt_compat; lra]. destruct (fst Sm) as [[x y] z]; cbn; pose proof (Rabs_pos x); pose proof (Rabs_pos y); pose proof (Rabs_pos z); lra. }
  unfold wmargin, emargin, wdist, edist in *. cbn [fst snd] in *.
  set (rh := rho) in *. set (c := wcond (h', Sm)) in *. set (v' := hval h' q) in *. set (v := hval h q) in *. set (w := wterms Sm r0) in *.
  set (l' := L') in *. set (l := L) in *. set (m := norm1 r + 1). set (mq := norm1 q) in *. set (m0 := norm1 r0) in *.
  assert (LP : 0 < l') by lra. assert (I1 : 0 < / l) by (apply Rinv_0_lt_compat; exact HL).
  assert (I2 : 0 < / l' <= 1031 / 1000 * / l).
  { split; [apply Rinv_0_lt_compat; exact LP|]. apply (Rmult_le_reg_r l'); [exact LP|]. rewrite Rinv_l by lra.
    apply Rle_trans with (1031 / 1000 * / l * (97 / 100 * l)); [|apply Rmult_le_compat_l; lra].
    replace (1031 / 1000 * / l * (97 / 100 * l)) with (1031 / 1000 * (97 / 100)) by (field; lra). lra. }
  assert (E0 : 0 <= e * rh) by (apply Rmult_le_pos; lra).
  (* the distance *)
  assert (Y : Rabs (v' / l' - v / l) <= (21 / 10 * (e * rh) + 13 * (e * (rh * rh))) * m).
  { replace (v' / l' - v / l) with ((v' - v) * / l' + v * (l - l') * (/ l' * / l)) by (field; lra).
    eapply Rle_trans; [apply Rabs_triang|].
    assert (M : 0 <= m) by (unfold m; lra).
    assert (A1 : Rabs ((v' - v) * / l') <= 2 * (e * (rh * l)) * m * (1031 / 1000 * / l)).
    { rewrite Rabs_mult, (Rabs_pos_eq (/ l')) by lra. apply Rmult_le_compat; try apply Rabs_pos; try lra.
      eapply Rle_trans; [exact D|]. apply Rmult_le_compat_l; [|unfold m; lra]. replace (2 * (e * (rh * l))) with (2 * (e * rh) * l) by ring. apply Rmult_le_pos; lra. }
    assert (A2 : Rabs (v * (l - l') * (/ l' * / l)) <= 2 * (rh * l) * m * (6 * (e * rh) * l) * (1031 / 1000 * / l * / l)).
    { rewrite !Rabs_mult, (Rabs_pos_eq (/ l')), (Rabs_pos_eq (/ l)) by lra. apply Rmult_le_compat.
      - apply Rmult_le_pos; apply Rabs_pos.
      - apply Rmult_le_pos; lra.
      - apply Rmult_le_compat; try apply Rabs_pos; [|exact L2]. eapply Rle_trans; [exact X1|]. apply Rmult_le_compat_l; [|unfold m; lra]. assert (0 <= rh * l) by (apply Rmult_le_pos; lra). lra.
      - apply Rmult_le_compat_r; lra. }
    replace (2 * (e * (rh * l)) * m * (1031 / 1000 * / l)) with (2 * (1031 / 1000) * (e * rh * m)) in A1 by (field; lra).
    replace (2 * (rh * l) * m * (6 * (e * rh) * l) * (1031 / 1000 * / l * / l)) with (12 * (1031 / 1000) * (e * rh * rh * m)) in A2 by (field; lra).
    assert (0 <= e * rh * m) by (apply Rmult_le_pos; assumption). assert (0 <= e * rh * rh * m) by (apply Rmult_le_pos; [apply Rmult_le_pos|]; assumption).
    replace ((21 / 10 * (e * rh) + 13 * (e * (rh * rh))) * m) with (21 / 10 * (e * rh * m) + 13 * (e * rh * rh * m)) by ring. lra. }
  (* the margin *)
  assert (Z : u * (40 + 6 * c) * (w / l') <= u * (40 + 6 * (13 * rh)) * (4 * (1031 / 1000) * rh * m)).
  { assert (M : 0 <= m) by (unfold m; lra).
    assert (W1 : w / l' <= 4 * (1031 / 1000) * rh * m).
    { unfold Rdiv. apply Rle_trans with (4 * (rh * l) * m * (1031 / 1000 * / l)).
      - apply Rle_trans with (4 * (rh * l) * (m0 + 1) * / l'); [apply Rmult_le_compat_r; lra|]. apply Rmult_le_compat; try lra.
        + apply Rmult_le_pos; [|lra]. assert (0 <= rh * l) by (apply Rmult_le_pos; lra). lra.
        + apply Rmult_le_compat_l; [|unfold m; lra]. assert (0 <= rh * l) by (apply Rmult_le_pos; lra). lra.
      - right. field. lra. }
    apply Rle_trans with (u * (40 + 6 * c) * (4 * (1031 / 1000) * rh * m)).
    - apply Rmult_le_compat_l; [apply Rmult_le_pos; lra|exact W1].
    - apply Rmult_le_compat_r; [apply Rmult_le_pos; [apply Rmult_le_pos; lra|exact M]|]. apply Rmult_le_compat_l; lra. }
  assert (T : t * (m0 + 40) <= t * (norm1 r + 40)) by (apply Rmult_le_compat_l; lra).
  fold m. assert (M : 0 <= m) by (unfold m; lra).
  assert (K1 : 0 <= e * rh * m) by (apply Rmult_le_pos; assumption). assert (K2 : 0 <= e * rh * rh * m) by (apply Rmult_le_pos; [apply Rmult_le_pos|]; assumption).
  assert (UR : 0 <= u * rh) by (apply Rmult_le_pos; lra). assert (K3 : 0 <= u * rh * m) by (apply Rmult_le_pos; assumption). assert (K4 : 0 <= u * rh * rh * m) by (apply Rmult_le_pos; [apply Rmult_le_pos|]; assumption).
  replace ((21 / 10 * (e * rh) + 13 * (e * (rh * rh))) * m) with (21 / 10 * (e * rh * m) + 13 * (e * rh * rh * m)) in Y by ring.
  replace (u * (40 + 6 * (13 * rh)) * (4 * (1031 / 1000) * rh * m)) with (160 * (1031 / 1000) * (u * rh * m) + 312 * (1031 / 1000) * (u * rh * rh * m)) in Z by (field; lra).
  replace (((170 * u + 3 * e) * rh + (330 * u + 13 * e) * (rh * rh)) * m) with (170 * (u * rh * m) + 3 * (e * rh * m) + 330 * (u * rh * rh * m) + 13 * (e * rh * rh * m)) by ring. lra.
Qed.
End Eye.
