(** Real-number part of C224-C225: homogeneous division with perturbed numbers. *)
From Coq Require Import Reals Lra Lia List.
From Verif Require Import Spec Spec4 Spec11 Spec12 Spec14 Spec17 Spec19 LVectorR LSum LMat4 LEdit LEye.
Local Open Scope R_scope.
Local Notation frobR := Spec14.frobR.

Lemma rsum1_pos v : 1 <= rsum 3 (fun i => Rabs (v i)) + 1.
Proof. cbn [rsum]. pose proof (Rabs_pos (v 0%nat)). pose proof (Rabs_pos (v 1%nat)). pose proof (Rabs_pos (v 2%nat)). lra. Qed.
(** A row applied to (v, 1), with numbers of at most b. *)
Lemma hom_row (A : nat -> nat -> R) v i b : (forall j, (j < 4)%nat -> Rabs (A i j) <= b) -> Rabs (homR 3 A v i) <= b * (rsum 3 (fun i => Rabs (v i)) + 1).
Proof.
  intros H. pose proof (H 0%nat ltac:(lia)) as H0. pose proof (H 1%nat ltac:(lia)) as H1. pose proof (H 2%nat ltac:(lia)) as H2. pose proof (H 3%nat ltac:(lia)) as H3.
  unfold homR, mvecR, hom1. cbn [rsum Nat.add Nat.ltb Nat.leb].
  assert (M : forall a x, Rabs a <= b -> Rabs (a * x) <= b * Rabs x) by (intros a x Ha; rewrite Rabs_mult; apply Rmult_le_compat_r; [apply Rabs_pos|exact Ha]).
  pose proof (M _ (v 0%nat) H0) as M0. pose proof (M _ (v 1%nat) H1) as M1. pose proof (M _ (v 2%nat) H2) as M2.
  set (x0 := A i 0%nat * v 0%nat) in *. set (x1 := A i 1%nat * v 1%nat) in *. set (x2 := A i 2%nat * v 2%nat) in *.
  pose proof (Rabs_triang (0 + x0 + x1 + x2) (A i 3%nat * 1)) as T1. pose proof (Rabs_triang (0 + x0 + x1) x2) as T2. pose proof (Rabs_triang (0 + x0) x1) as T3.
  pose proof (Rabs_triang 0 x0) as T4. rewrite Rabs_R0 in T4. rewrite Rmult_1_r in *. lra.
Qed.
Lemma hom_sub A G v i : homR 3 A v i - homR 3 G v i = homR 3 (fun i j => A i j - G i j) v i.
Proof. unfold homR, mvecR, hom1. cbn [rsum Nat.add Nat.ltb Nat.leb]. ring. Qed.
Lemma screen_bound u eta al h h' w w' E Ew r :
  0 < u <= / 1000 -> 0 < Rabs w -> 0 <= E -> 0 <= Ew -> 0 <= al <= / 8 ->
  Rabs (h' - h) + E <= al * Rabs w -> Rabs (w' - w) + Ew <= al * Rabs w ->
  Rabs (r - h' / w') <= (1 + u) * (2 * (E + Rabs (h' / w') * Ew) / Rabs w') + u * Rabs (h' / w') + eta ->
  Rabs (r - h / w) <= (4 * al + 2 * u) * (1 + Rabs (h / w)) + eta.
Proof.
  intros Hu Hw HE HEw Ha H1 H2 HR. set (q := h / w) in *. set (q' := h' / w') in *. set (W := Rabs w) in *.
  assert (NW : w <> 0) by (intros ->; unfold W in Hw; rewrite Rabs_R0 in Hw; lra).
  assert (D1 : 0 <= Rabs (h' - h)) by apply Rabs_pos. assert (D2 : 0 <= Rabs (w' - w)) by apply Rabs_pos.
  assert (aW : al * W <= / 8 * W) by (apply Rmult_le_compat_r; lra).
  assert (W1 : 7 / 8 * W <= Rabs w').
  { pose proof (Rabs_triang w' (- (w' - w))) as T. replace (w' + - (w' - w)) with w in T by ring. rewrite Rabs_Ropp in T. fold W in T. lra. }
  set (W' := Rabs w') in *. assert (NW' : w' <> 0) by (intros E0; unfold W' in W1; rewrite E0, Rabs_R0 in W1; lra).
  assert (I : 0 < / W' <= 8 / 7 * / W).
  { split; [apply Rinv_0_lt_compat; lra|]. apply (Rmult_le_reg_r W'); [lra|]. rewrite Rinv_l by lra.
    apply Rle_trans with (8 / 7 * / W * (7 / 8 * W)); [right; field; lra|]. apply Rmult_le_compat_l; [|exact W1]. assert (0 < / W) by (apply Rinv_0_lt_compat; lra). lra. }
  assert (B : forall d, 0 <= d <= al * W -> d * / W' <= 8 / 7 * al).
  { intros d Hd. apply Rle_trans with (al * W * (8 / 7 * / W)); [apply Rmult_le_compat; lra|]. right. field. lra. }
  pose proof (Rabs_pos q) as Q0. pose proof (Rabs_pos q') as Q1.
  assert (DQ : Rabs (q' - q) <= 8 / 7 * al * (1 + Rabs q)).
  { replace (q' - q) with ((h' - h) * / w' + - q * (w' - w) * / w') by (unfold q, q'; field; split; assumption).
    eapply Rle_trans; [apply Rabs_triang|]. rewrite !Rabs_mult, Rabs_Ropp, Rabs_inv. fold W'.
    pose proof (B (Rabs (h' - h)) ltac:(lra)) as B1. pose proof (B (Rabs (w' - w)) ltac:(lra)) as B2.
    apply (Rmult_le_compat_l (Rabs q)) in B2; [|exact Q0]. lra. }
  assert (aq : al * (1 + Rabs q) <= / 8 * (1 + Rabs q)) by (apply Rmult_le_compat_r; lra).
  assert (QB : Rabs q' <= 8 / 7 * Rabs q + / 7).
  { pose proof (Rabs_triang q (q' - q)) as T. replace (q + (q' - q)) with q' in T by ring. lra. }
  assert (X : 2 * (E + Rabs q' * Ew) / W' <= 2 * (8 / 7) * (8 / 7) * (al * (1 + Rabs q))).
  { pose proof (B E ltac:(lra)) as B1. pose proof (B Ew ltac:(lra)) as B2. unfold Rdiv at 1.
    replace (2 * (E + Rabs q' * Ew) * / W') with (2 * (E * / W' + Rabs q' * (Ew * / W'))) by ring.
    assert (Y : Rabs q' * (Ew * / W') <= (8 / 7 * Rabs q + / 7) * (8 / 7 * al)) by (apply Rmult_le_compat; [exact Q1|apply Rmult_le_pos; lra|exact QB|exact B2]).
    assert (al * Rabs q >= 0) by (apply Rle_ge, Rmult_le_pos; lra). lra. }
  assert (P0 : 0 <= al * (1 + Rabs q)) by (apply Rmult_le_pos; lra).
  assert (X2 : (1 + u) * (2 * (E + Rabs q' * Ew) / W') <= (1 + / 1000) * (2 * (8 / 7) * (8 / 7) * (al * (1 + Rabs q)))).
  { apply Rmult_le_compat; try lra. unfold Rdiv. apply Rmult_le_pos; [|lra]. assert (0 <= Rabs q' * Ew) by (apply Rmult_le_pos; assumption). lra. }
  assert (X3 : u * Rabs q' <= u * (8 / 7 * Rabs q + / 7)) by (apply Rmult_le_compat_l; lra). assert (0 <= u * Rabs q) by (apply Rmult_le_pos; lra).
  pose proof (Rabs_triang (r - q') (q' - q)) as T. replace (r - q' + (q' - q)) with (r - q) in T by ring.
  replace ((4 * al + 2 * u) * (1 + Rabs q)) with (4 * (al * (1 + Rabs q)) + 2 * u + 2 * (u * Rabs q)) by ring. lra.
Qed.

(** The numbers of the product with a perturbed view matrix. *)
Section Screen.
Context (P V X M : nat -> nat -> R) (B e u eta : R) (HX : frobR 4 X <= B) (HV : frobR 4 (fun i j => V i j - X i j) <= e * B) (He : 0 <= e <= 1) (Hu : 0 < u <= / 100000) (Ht : 0 < eta <= / 1000).
Context (HM : forall i j, (i < 4)%nat -> (j < 4)%nat -> Rabs (M i j - mmulR 4 P V i j) <= 9 / 2 * u * mmulR 4 (absM P) (absM V) i j + 9 / 2 * eta).
Local Notation p := (frobR 4 P).
Lemma pB_pos : 0 <= p * B. Proof. pose proof (frob_nonneg X). apply Rmult_le_pos; [apply frob_nonneg|lra]. Qed.
Lemma G_cell i j : (i < 4)%nat -> (j < 4)%nat -> Rabs (mmulR 4 P X i j) <= p * B.
Proof. intros Hi Hj. eapply Rle_trans; [apply entry_frob; assumption|]. eapply Rle_trans; [apply frob_mul|]. apply Rmult_le_compat_l; [apply frob_nonneg|exact HX]. Qed.
Lemma M_diff i j : (i < 4)%nat -> (j < 4)%nat -> Rabs (M i j - mmulR 4 P X i j) <= (e + 9 * u) * (p * B) + 9 / 2 * eta.
Proof.
  intros Hi Hj. pose proof (HM i j Hi Hj) as H.
  assert (A : Rabs (mmulR 4 P V i j - mmulR 4 P X i j) <= e * (p * B)).
  { rewrite mmul_sub. set (D := fun i j => V i j - X i j) in *. eapply Rle_trans; [apply (entry_frob (mmulR 4 P D)); assumption|].
    eapply Rle_trans; [apply frob_mul|]. replace (e * (p * B)) with (p * (e * B)) by ring. apply Rmult_le_compat_l; [apply frob_nonneg|exact HV]. }
  assert (Sq : mmulR 4 (absM P) (absM V) i j <= 2 * (p * B)).
  { eapply Rle_trans; [apply Rle_abs|]. eapply Rle_trans; [apply (entry_frob (mmulR 4 (absM P) (absM V))); assumption|]. eapply Rle_trans; [apply frob_mul|]. rewrite !frob_absM.
    replace (2 * (p * B)) with (p * (2 * B)) by ring. apply Rmult_le_compat_l; [apply frob_nonneg|]. exact (V_le V X B e HX HV He). }
  assert (9 / 2 * u * mmulR 4 (absM P) (absM V) i j <= 9 / 2 * u * (2 * (p * B))) by (apply Rmult_le_compat_l; lra).
  pose proof (Rabs_triang (M i j - mmulR 4 P V i j) (mmulR 4 P V i j - mmulR 4 P X i j)) as T.
  replace (M i j - mmulR 4 P V i j + (mmulR 4 P V i j - mmulR 4 P X i j)) with (M i j - mmulR 4 P X i j) in T by ring. lra.
Qed.
Lemma M_cell i j : (i < 4)%nat -> (j < 4)%nat -> Rabs (M i j) <= 21 / 10 * (p * B) + 9 / 2 * eta.
Proof.
  intros Hi Hj. pose proof (M_diff i j Hi Hj) as D. pose proof (G_cell i j Hi Hj) as G. pose proof pB_pos as P0.
  pose proof (Rabs_triang (mmulR 4 P X i j) (M i j - mmulR 4 P X i j)) as T. replace (mmulR 4 P X i j + (M i j - mmulR 4 P X i j)) with (M i j) in T by ring.
  assert ((e + 9 * u) * (p * B) <= (1 + / 10) * (p * B)) by (apply Rmult_le_compat_r; lra). lra.
Qed.
Context (v : nat -> R).
Local Notation N1 := (rsum 3 (fun i => Rabs (v i)) + 1).
Local Notation Sp := (p * B * N1).
Lemma hom_total (E : nat -> R) i : (i < 4)%nat ->
  E i <= 9 / 2 * u * homR 3 (absM M) (fun j => Rabs (v j)) i + 4 * eta ->
  Rabs (homR 3 M v i - homR 3 (mmulR 4 P X) v i) + E i <= (e + 20 * u) * Sp + 10 * (eta * N1).
Proof.
  intros Hi HE. pose proof (rsum1_pos v) as N. pose proof pB_pos as P0.
  assert (A : Rabs (homR 3 M v i - homR 3 (mmulR 4 P X) v i) <= ((e + 9 * u) * (p * B) + 9 / 2 * eta) * N1).
  { rewrite hom_sub. apply hom_row. intros j Hj. exact (M_diff i j Hi Hj). }
  assert (C : homR 3 (absM M) (fun j => Rabs (v j)) i <= (21 / 10 * (p * B) + 9 / 2 * eta) * N1).
  { eapply Rle_trans; [apply Rle_abs|]. replace N1 with (rsum 3 (fun j => Rabs (Rabs (v j))) + 1) by (cbn [rsum]; rewrite !Rabs_Rabsolu; reflexivity).
    apply hom_row. intros j Hj. unfold absM. rewrite Rabs_Rabsolu. exact (M_cell i j Hi Hj). }
  set (n := N1) in *. set (b := p * B) in *.
  assert (C1 : 9 / 2 * u * homR 3 (absM M) (fun j => Rabs (v j)) i <= 9 / 2 * u * ((21 / 10 * b + 9 / 2 * eta) * n)) by (apply Rmult_le_compat_l; lra).
  assert (E1 : eta * 1 <= eta * n) by (apply Rmult_le_compat_l; lra).
  assert (K1 : 0 <= u * b * n) by (apply Rmult_le_pos; [apply Rmult_le_pos|]; lra). assert (K2 : 0 <= eta * n) by (apply Rmult_le_pos; lra).
  assert (K3 : u * (eta * n) <= / 100000 * (eta * n)) by (apply Rmult_le_compat_r; lra).
  replace (9 / 2 * u * ((21 / 10 * b + 9 / 2 * eta) * n)) with (9 / 2 * (21 / 10) * (u * b * n) + 81 / 4 * (u * (eta * n))) in C1 by field.
  replace (((e + 9 * u) * b + 9 / 2 * eta) * n) with (e * b * n + 9 * (u * b * n) + 9 / 2 * (eta * n)) in A by ring.
  replace ((e + 20 * u) * (b * n)) with (e * b * n + 20 * (u * b * n)) by ring. lra.
Qed.
Lemma W_spread : Rabs (screenW (mmulR 4 P X) v) <= Sp.
Proof. unfold screenW. apply hom_row. intros j Hj. apply G_cell; lia. Qed.
End Screen.
