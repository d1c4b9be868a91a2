(** Property C95: the QR decomposition is the unique one with a positive
    diagonal, and its consequences. *)
From Verif Require Import PQr.
Local Open Scope R_scope.

Lemma rsum_split_at n c f : (c < n)%nat -> (forall i, (c < i)%nat -> (i < n)%nat -> f i = 0) ->
  rsum n f = rsum c f + f c.
Proof.
  intros Hc H. replace n with (S c + (n - S c))%nat by lia. rewrite rsum_split. cbn [rsum].
  rewrite (rsum_zero' (n - S c)); [ring|]. intros i Hi. apply H; lia.
Qed.
Lemma col_split M N A Q U c : is_qr M N A Q U -> (c < N)%nat ->
  forall i, (i < M)%nat -> A i c = rsum c (fun k => Q i k * U k c) + Q i c * U c c.
Proof.
  intros (HO & HT & HD & HF) Hc i Hi. rewrite (HF i c Hi Hc). unfold mmulR.
  apply (rsum_split_at N c (fun k => Q i k * U k c) Hc). intros k Hk Hk2. rewrite (HT k c Hk2 Hc Hk). ring.
Qed.
Lemma dot_rsum M c (q : nat -> R) (f : nat -> nat -> R) (u : nat -> R) :
  dotR M q (fun i => rsum c (fun k => f i k * u k)) = rsum c (fun k => u k * dotR M q (fun i => f i k)).
Proof.
  unfold dotR. transitivity (rsum M (fun i => rsum c (fun k => u k * (q i * f i k)))).
  { apply rsum_ext. intros i _. rewrite <- rsum_scal. apply rsum_ext. intros; ring. }
  rewrite rsum_swap. apply rsum_ext. intros k _. rewrite rsum_scal. reflexivity.
Qed.

Lemma qr_unique M N A Q U Q' U' : is_qr M N A Q U -> is_qr M N A Q' U' ->
  forall c, (c < N)%nat -> (forall i, (i < M)%nat -> Q i c = Q' i c) /\ (forall k, (k < N)%nat -> U k c = U' k c).
Proof.
  intros H H'. assert (IND : forall n c, (c < n)%nat -> (c < N)%nat ->
    (forall i, (i < M)%nat -> Q i c = Q' i c) /\ (forall k, (k < N)%nat -> U k c = U' k c)).
  2:{ intros c Hc. apply (IND (S c)); lia. }
  induction n as [|n IH]; intros c Hn Hc; [lia|].
  assert (EQ : forall k, (k < c)%nat -> forall i, (i < M)%nat -> Q i k = Q' i k) by (intros k Hk; apply IH; lia).
  pose proof (col_split M N A Q U c H Hc) as S1. pose proof (col_split M N A Q' U' c H' Hc) as S2.
  destruct H as (HO & HT & HD & HF). destruct H' as (HO' & HT' & HD' & HF').
  assert (P : forall (Q0 U0 : nat -> nat -> R), orthonormal_cols M N Q0 ->
            (forall i, (i < M)%nat -> A i c = rsum c (fun k => Q0 i k * U0 k c) + Q0 i c * U0 c c) ->
            forall k, (k < c)%nat -> dotR M (fun i => Q0 i k) (fun i => A i c) = U0 k c).
  { intros Q0 U0 O0 S0 k Hk.
    rewrite (dotR_ext M (fun i => Q0 i k) (fun i => A i c) (fun i => Q0 i k)
       (fun i => rsum c (fun k => Q0 i k * U0 k c) + U0 c c * Q0 i c)) by (try reflexivity; intros i Hi; rewrite (S0 i Hi); ring).
    rewrite dotR_plus_r, dotR_scal_r, (dot_rsum M c (fun i => Q0 i k) Q0 (fun k => U0 k c)).
    rewrite (O0 k c) by lia. rewrite (rsum_single c k); [|exact Hk|].
    - rewrite (O0 k k) by lia. unfold idR. rewrite Nat.eqb_refl. destruct (Nat.eqb_spec k c); [lia|ring].
    - intros j Hj Hne. rewrite (O0 k j) by lia. unfold idR. destruct (Nat.eqb_spec k j); [lia|ring]. }
  assert (EU : forall k, (k < c)%nat -> U k c = U' k c).
  { intros k Hk. rewrite <- (P Q U HO S1 k Hk), <- (P Q' U' HO' S2 k Hk). apply dotR_ext; [|reflexivity].
    intros i Hi. apply EQ; assumption. }
  assert (ES : forall i, (i < M)%nat -> U c c * Q i c = U' c c * Q' i c).
  { intros i Hi. pose proof (S1 i Hi) as X. rewrite (S2 i Hi) in X.
    assert (Y : rsum c (fun k => Q i k * U k c) = rsum c (fun k => Q' i k * U' k c)).
    { apply rsum_ext. intros k Hk. rewrite EQ, EU by assumption. reflexivity. }
    lra. }
  assert (EC : U c c = U' c c).
  { assert (X : U c c * U c c = U' c c * U' c c).
    { transitivity (dotR M (fun i => U c c * Q i c) (fun i => U c c * Q i c)).
      - rewrite dotR_scal_l, dotR_scal_r, (HO c c Hc Hc). unfold idR. rewrite Nat.eqb_refl. ring.
      - rewrite (dotR_ext M _ _ (fun i => U' c c * Q' i c) (fun i => U' c c * Q' i c)) by exact ES.
        rewrite dotR_scal_l, dotR_scal_r, (HO' c c Hc Hc). unfold idR. rewrite Nat.eqb_refl. ring. }
    pose proof (HD c Hc). pose proof (HD' c Hc). nra. }
  split.
  - intros i Hi. pose proof (ES i Hi) as X. rewrite <- EC in X. pose proof (HD c Hc).
    apply Rmult_eq_reg_l with (U c c); lra.
  - intros k Hk. destruct (Nat.lt_trichotomy k c) as [L|[->|L]]; [apply EU; exact L|exact EC|].
    rewrite (HT k c Hk Hc L), (HT' k c Hk Hc L). reflexivity.
Qed.

(** C95.  For a matrix with linearly independent columns: if anybody hands over
    matrices with orthonormal columns, upper triangular with positive diagonal,
    whose product is A, then they are the ones qr_decompose computes.  In
    particular the columns of an A that are already orthonormal are returned
    unchanged with R = 1, and an upper triangular A with positive diagonal gives
    Q = 1, R = A.  Also R^T R = A^T A (the Cholesky factor). *)
Theorem C95_qr_unique :
  forall (cfg : Cfg) (lim : RLim) (M N : nat) (A Q U : list R) (fA fQ fU : nat -> nat -> R),
  (N <= M)%nat -> repM M N A fA -> length Q = (M * M)%nat -> length U = (N * N)%nat ->
  orthonormal_cols M N fQ -> upper_tri N fU -> (forall c, (c < N)%nat -> 0 < fU c c) ->
  (forall i j, (i < M)%nat -> (j < N)%nat -> mmulR N fQ fU i j = fA i j) ->
  exists Q' U' gQ gU, qr_decompose M N A Q U = Ok (Q', U') /\ repM M M Q' gQ /\ repM N N U' gU /\
    (forall i j, (i < M)%nat -> (j < N)%nat -> gQ i j = fQ i j) /\
    (forall i j, (i < N)%nat -> (j < N)%nat -> gU i j = fU i j).
Proof.
  intros cfg lim M N A Q U fA fQ fU HMN HA LQ LU HO HT HD HF.
  assert (IQ : is_qr M N fA fQ fU) by (split; [exact HO|]; split; [exact HT|]; split; [exact HD|]; intros; symmetry; apply HF; assumption).
  destruct (C76_qr_decomposition M N A Q U fA HMN HA LQ LU (qr_indep M N fA fQ fU IQ)) as (Q' & U' & gQ & gU & E & HQ & HU & G & _).
  exists Q', U', gQ, gU. repeat (split; [assumption|]). split; intros i j Hi Hj.
  - apply (proj1 (qr_unique M N fA gQ gU fQ fU G IQ j Hj)); assumption.
  - apply (proj2 (qr_unique M N fA gQ gU fQ fU G IQ j Hj)); assumption.
Qed.
Print Assumptions C95_qr_unique.

Theorem C95_qr_special_inputs :
  forall (cfg : Cfg) (lim : RLim) (M N : nat) (A Q U : list R) (fA : nat -> nat -> R),
  (N <= M)%nat -> repM M N A fA -> length Q = (M * M)%nat -> length U = (N * N)%nat ->
  (orthonormal_cols M N fA ->
     exists Q' U' gQ, qr_decompose M N A Q U = Ok (Q', U') /\ repM M M Q' gQ /\ repM N N U' idR /\
       forall i j, (i < M)%nat -> (j < N)%nat -> gQ i j = fA i j) /\
  (M = N -> upper_tri N fA -> (forall c, (c < N)%nat -> 0 < fA c c) ->
     exists Q', qr_decompose M N A Q U = Ok (Q', A) /\ repM M M Q' idR) /\
  (lin_indep M N fA ->
     exists Q' U' gU, qr_decompose M N A Q U = Ok (Q', U') /\ repM N N U' gU /\
       forall i j, (i < N)%nat -> (j < N)%nat ->
         rsum N (fun k => gU k i * gU k j) = rsum M (fun k => fA k i * fA k j)).
Proof.
  intros cfg lim M N A Q U fA HMN HA LQ LU. split; [|split].
  - intros HO. destruct (C95_qr_unique cfg lim M N A Q U fA fA idR HMN HA LQ LU HO) as (Q' & U' & gQ & gU & E & HQ & HU & E1 & E2).
    + intros r c Hr Hc L. unfold idR. destruct (Nat.eqb_spec r c); [lia|reflexivity].
    + intros c Hc. unfold idR. rewrite Nat.eqb_refl. lra.
    + intros i j Hi Hj. apply mmulR_id_r. exact Hj.
    + exists Q', U', gQ. split; [exact E|]. split; [exact HQ|]. split; [eapply repM_ext; [exact HU|exact E2]|exact E1].
  - intros <- HT HD. destruct (C95_qr_unique cfg lim M M A Q U fA idR fA HMN HA LQ LU) as (Q' & U' & gQ & gU & E & HQ & HU & E1 & E2); auto.
    + intros i k Hi Hk. unfold dotR. transitivity (mmulR M idR idR i k); [|apply mmulR_id_l; exact Hi].
      apply rsum_ext. intros r Hr. unfold idR. rewrite (Nat.eqb_sym r i). reflexivity.
    + intros i j Hi Hj. apply mmulR_id_l. exact Hi.
    + exists Q'. rewrite E. split; [|eapply repM_ext; [exact HQ|exact E1]]. f_equal. f_equal.
      eapply repM_inj; [exact HU|]. eapply repM_ext; [exact HA|]. intros i j Hi Hj. symmetry. apply E2; assumption.
  - intros HI. destruct (C76_qr_decomposition M N A Q U fA HMN HA LQ LU HI) as (Q' & U' & gQ & gU & E & HQ & HU & (HO & HT & HD & HF) & _).
    exists Q', U', gU. split; [exact E|]. split; [exact HU|]. intros i j Hi Hj.
    symmetry. transitivity (dotR M (fun k => rsum N (fun p => gQ k p * gU p i)) (fun k => rsum N (fun p => gQ k p * gU p j))).
    { apply rsum_ext. intros k Hk. rewrite (HF k i Hk Hi), (HF k j Hk Hj). reflexivity. }
    rewrite dot_rsum. rewrite (rsum_ext N _ (fun p => gU p i * gU p j)); [reflexivity|].
    intros p Hp. rewrite dotR_sym, dot_rsum. rewrite (rsum_single N p); [|exact Hp|].
    + rewrite (HO p p Hp Hp). unfold idR. rewrite Nat.eqb_refl. ring.
    + intros q Hq Hne. rewrite (HO p q Hp Hq). unfold idR. destruct (Nat.eqb_spec p q); [congruence|ring].
Qed.
Print Assumptions C95_qr_special_inputs.
Example C95_hypotheses_met : orthonormal_cols 2 2 (fun i j => match i, j with 0%nat, 1%nat => 1 | 1%nat, 0%nat => 1 | _, _ => 0 end) /\
  upper_tri 2 (fun i j => if (i <=? j)%nat then 2 else 0).
Proof.
  split.
  - intros i k Hi Hk. destruct i as [|[|]], k as [|[|]]; try lia; cbn; unfold dotR; cbn; lra.
  - intros r c Hr Hc L. destruct (Nat.leb_spec r c); [lia|reflexivity].
Qed.
