(** Real-number part of C220-C221. *)
From Coq Require Import Reals Lra List.
From Verif Require Import LMat4 LSum LVectorR Spec Spec4 Spec14 Spec17 PFloat2 PQrF PMatrix6 PMoveF.
Import ListNotations.
Local Open Scope R_scope.
Local Notation frobR := Spec14.frobR.

Lemma frob_mul A B : frobR 4 (mmulR 4 A B) <= frobR 4 A * frobR 4 B.
Proof. exact (frobR_mul 4 4 4 A B). Qed.
Lemma frob_le A B : (forall i j, (i < 4)%nat -> (j < 4)%nat -> Rabs (A i j) <= B i j) -> frobR 4 A <= frobR 4 B.
Proof.
  intros H. rewrite !frob_rows. apply lenR_le. intros i Hi. rewrite Rabs_pos_eq by apply lenR_nonneg.
  apply lenR_le. intros j Hj. apply H; assumption.
Qed.
Lemma frob_scal k A : frobR 4 (fun i j => k * A i j) = Rabs k * frobR 4 A.
Proof.
  rewrite !frob_rows. rewrite <- (Rabs_Rabsolu k). rewrite <- lenR_scal. apply lenR_ext. intros i Hi. apply lenR_scal.
Qed.
Lemma frob_abs A : frobR 4 (fun i j => Rabs (A i j)) = frobR 4 A.
Proof. unfold Spec14.frobR. f_equal. apply rsum_ext. intros i Hi. apply rsum_ext. intros j Hj. rewrite <- Rabs_mult. apply Rabs_pos_eq, Rle_0_sqr. Qed.
Lemma max3_ge s i : (i < 4)%nat -> Rabs (comp4 s i) <= Rmax 1 (max3 s).
Proof.
  destruct s as [[x y] z]. intros Hi. unfold max3. pose proof (Rmax_l 1 (Rmax (Rabs x) (Rmax (Rabs y) (Rabs z)))). pose proof (Rmax_r 1 (Rmax (Rabs x) (Rmax (Rabs y) (Rabs z)))).
  pose proof (Rmax_l (Rabs x) (Rmax (Rabs y) (Rabs z))). pose proof (Rmax_r (Rabs x) (Rmax (Rabs y) (Rabs z))). pose proof (Rmax_l (Rabs y) (Rabs z)). pose proof (Rmax_r (Rabs y) (Rabs z)).
  cell4 i Hi; cbn [comp4 nth]; rewrite ?Rabs_R1; lra.
Qed.
Lemma factor_ge1 e : 1 <= factor e.
Proof. destruct e; cbn [factor]; try apply Rle_refl; apply Rmax_l. Qed.
Lemma offset_nn e : 0 <= offset e.
Proof. destruct e as [x|s|s|[[x y] z]|B|B]; cbn [offset]; try apply Rle_refl. pose proof (Rabs_pos x). pose proof (Rabs_pos y). pose proof (Rabs_pos z). lra. Qed.
Lemma mul_cell c k x : Rabs c <= k -> 1 <= k -> Rabs (x * c) <= k * Rabs x.
Proof. intros H1 H2. rewrite Rabs_mult, Rmult_comm. apply Rmult_le_compat_r; [apply Rabs_pos|exact H1]. Qed.
Lemma keep_cell k x : 1 <= k -> Rabs x <= k * Rabs x.
Proof. intros H. rewrite <- (Rmult_1_l (Rabs x)) at 1. apply Rmult_le_compat_r; [apply Rabs_pos|exact H]. Qed.
Lemma frob_factor k A B : 1 <= k -> (forall i j, (i < 4)%nat -> (j < 4)%nat -> Rabs (B i j) <= k * Rabs (A i j)) -> frobR 4 B <= k * frobR 4 A.
Proof. intros Hk H. eapply Rle_trans; [apply (frob_le B (fun i j => k * Rabs (A i j)) H)|]. rewrite frob_scal, frob_abs, Rabs_pos_eq by lra. apply Rle_refl. Qed.
(** A call magnifies differences at most by its factor. *)
Lemma edit_lip e X Y : frobR 4 (fun i j => editedR e X i j - editedR e Y i j) <= factor e * frobR 4 (fun i j => X i j - Y i j).
Proof.
  destruct e as [x|s|s|t|B|B]; cbn [factor].
  - rewrite (frob_ext _ (fun i j => moveR x (fun i j => X i j - Y i j) i j)) by (intros i j Hi Hj; rewrite moveR_minus by assumption; reflexivity).
    change (frobR 4 (fun i j => moveR x (fun i j => X i j - Y i j) i j)) with (frobR 4 (moveR x (fun i j => X i j - Y i j))). rewrite moveR_frob. lra.
  - apply frob_factor; [apply Rmax_l|]. intros i j Hi Hj. cbn [editedR]. replace (X i j * comp4 s j - Y i j * comp4 s j) with ((X i j - Y i j) * comp4 s j) by ring.
    apply mul_cell; [apply max3_ge; exact Hj|apply Rmax_l].
  - apply frob_factor; [apply Rmax_l|]. intros i j Hi Hj. cbn [editedR]. destruct (Nat.eqb j 3); [|apply keep_cell, Rmax_l].
    replace (X i j * comp4 s i - Y i j * comp4 s i) with ((X i j - Y i j) * comp4 s i) by ring. apply mul_cell; [apply max3_ge; exact Hi|apply Rmax_l].
  - apply frob_factor; [lra|]. intros i j Hi Hj. cbn [editedR]. destruct (Nat.eqb j 3 && Nat.ltb i 3)%bool; [|apply keep_cell; lra].
    rewrite Rminus_diag_eq by reflexivity. rewrite Rabs_R0. pose proof (Rabs_pos (X i j - Y i j)). lra.
  - cbn [editedR]. rewrite (frob_ext _ (fun i j => mmulR 4 (fun i j => X i j - Y i j) B i j)) by (intros i j Hi Hj; unfold mmulR; rewrite <- rsum_minus; apply rsum_ext; intros; ring).
    eapply Rle_trans; [apply (frob_mul (fun i j => X i j - Y i j) B)|]. rewrite Rmult_comm. apply Rmult_le_compat_r; [apply frob_nn|apply Rmax_r].
  - cbn [editedR]. rewrite (frob_ext _ (fun i j => mmulR 4 B (fun i j => X i j - Y i j) i j)) by (intros i j Hi Hj; unfold mmulR; rewrite <- rsum_minus; apply rsum_ext; intros; ring).
    eapply Rle_trans; [apply (frob_mul B (fun i j => X i j - Y i j))|]. apply Rmult_le_compat_r; [apply frob_nn|apply Rmax_r].
Qed.
Lemma frob_0 : frobR 4 (fun _ _ => 0) = 0.
Proof. transitivity (sqrt 0); [unfold Spec14.frobR; f_equal; cbn [rsum]; ring|apply sqrt_0]. Qed.
Lemma sqrt3_le a b c : sqrt (a * a + b * b + c * c) <= Rabs a + Rabs b + Rabs c.
Proof.
  pose proof (Rabs_pos a) as A. pose proof (Rabs_pos b) as B. pose proof (Rabs_pos c) as C.
  rewrite <- (sqrt_square (Rabs a + Rabs b + Rabs c)) by lra. apply sqrt_le_1_alt.
  assert (E : forall x, x * x = Rabs x * Rabs x) by (intros x; rewrite <- Rabs_mult, Rabs_pos_eq; [reflexivity|apply Rle_0_sqr]). rewrite (E a), (E b), (E c).
  assert (0 <= Rabs a * Rabs b) by (apply Rmult_le_pos; assumption). assert (0 <= Rabs a * Rabs c) by (apply Rmult_le_pos; assumption). assert (0 <= Rabs b * Rabs c) by (apply Rmult_le_pos; assumption). lra.
Qed.
Lemma edit_grow e X : frobR 4 (editedR e X) <= factor e * frobR 4 X + offset e.
Proof.
  assert (K : forall e0, frobR 4 (editedR e0 X) <= factor e0 * frobR 4 X + frobR 4 (editedR e0 (fun _ _ => 0))).
  { intros e0. rewrite (frob_ext (editedR e0 X) (fun i j => (editedR e0 X i j - editedR e0 (fun _ _ => 0) i j) + editedR e0 (fun _ _ => 0) i j)) by (intros; ring).
    eapply Rle_trans; [apply frob_triangle|]. pose proof (edit_lip e0 X (fun _ _ => 0)) as L. cbv beta in L. rewrite (frob_ext (fun i j => X i j - 0) X) in L by (intros; ring).
    change (fun i j => editedR e0 (fun _ _ => 0) i j) with (editedR e0 (fun _ _ => 0)). lra. }
  eapply Rle_trans; [apply K|]. apply Rplus_le_compat_l.
  assert (Z : forall B, (forall i j, (i < 4)%nat -> (j < 4)%nat -> B i j = 0) -> frobR 4 B <= 0) by (intros B H; rewrite (frob_ext B (fun _ _ => 0) H), frob_0; lra).
  destruct e as [x|s|s|[[x y] z]|B|B]; cbn [offset].
  - cbn [editedR]. rewrite moveR_frob, frob_0. lra.
  - apply Z. intros. cbn [editedR]. ring.
  - apply Z. intros i j _ _. cbn [editedR]. destruct (Nat.eqb j 3); ring.
  - unfold Spec14.frobR. eapply Rle_trans; [|apply sqrt3_le]. apply Req_le. f_equal. cbn [rsum editedR comp4 Nat.eqb Nat.ltb Nat.leb andb nth]. ring.
  - apply Z. intros i j _ _. cbn [editedR]. unfold mmulR. cbn [rsum]. ring.
  - apply Z. intros i j _ _. cbn [editedR]. unfold mmulR. cbn [rsum]. ring.
Qed.
(** One step of the induction. *)
Lemma edit_err (k kk w : R) e (h X G : nat -> nat -> R) (P B : R) :
  0 <= k -> 0 <= kk -> 1 <= P -> 0 <= B -> w <= kk * B ->
  frobR 4 X <= B -> frobR 4 (fun i j => h i j - X i j) <= (P - 1) * B ->
  frobR 4 (fun i j => G i j - editedR e h i j) <= k * (factor e * frobR 4 h) + w ->
  frobR 4 h <= P * B /\ frobR 4 (editedR e X) <= factor e * B + offset e /\
  frobR 4 (fun i j => G i j - editedR e X i j) <= (P * (1 + (k + kk)) - 1) * (factor e * B + offset e).
Proof.
  intros Hk KK HP HB Hw HX HD HG. pose proof (factor_ge1 e) as F1. pose proof (offset_nn e) as O1.
  assert (LH : frobR 4 h <= P * B).
  { rewrite (frob_ext h (fun i j => X i j + (h i j - X i j))) by (intros; ring). eapply Rle_trans; [apply frob_triangle|]. lra. }
  split; [exact LH|]. split.
  - eapply Rle_trans; [apply edit_grow|]. apply Rplus_le_compat_r. apply Rmult_le_compat_l; lra.
  - rewrite (frob_ext _ (fun i j => (G i j - editedR e h i j) + (editedR e h i j - editedR e X i j))) by (intros; ring).
    eapply Rle_trans; [apply frob_triangle|]. pose proof (edit_lip e h X) as L.
    assert (L2 : factor e * frobR 4 (fun i j => h i j - X i j) <= factor e * ((P - 1) * B)) by (apply Rmult_le_compat_l; lra).
    assert (L3 : k * (factor e * frobR 4 h) <= k * (factor e * (P * B))) by (apply Rmult_le_compat_l; [lra|apply Rmult_le_compat_l; lra]).
    set (FB := factor e * B) in *. assert (B1 : B <= FB) by (unfold FB; rewrite <- (Rmult_1_l B) at 1; apply Rmult_le_compat_r; lra).
    replace (factor e * ((P - 1) * B)) with ((P - 1) * FB) in L2 by (unfold FB; ring). replace (k * (factor e * (P * B))) with (k * (P * FB)) in L3 by (unfold FB; ring).
    assert (M1 : kk * B <= kk * (P * FB)). { apply Rmult_le_compat_l; [exact KK|]. eapply Rle_trans; [exact B1|]. rewrite <- (Rmult_1_l FB) at 1. apply Rmult_le_compat_r; lra. }
    assert (M2 : 0 <= (P * (1 + (k + kk)) - 1) * offset e).
      { apply Rmult_le_pos; [|exact O1]. assert (0 <= P * (k + kk)) by (apply Rmult_le_pos; lra). lra. }
    lra.
Qed.
