(** Property C81: rounding errors of sums of products in IEEE binary64. *)
From Coq Require Import ZArith Reals Lra Psatz.
From Flocq Require Import Core.Core IEEE754.BinarySingleNaN IEEE754.Binary IEEE754.Bits Relative Plus_error.
From Verif Require Import InstF LF64 LVector LMatrix Spec LSum.
Local Open Scope R_scope.

(** The real value of a double, and whether it is finite (neither an infinity
    nor a NaN). *)
Definition val (x : f64) : R := B2R 53 1024 x.
Definition fin (x : f64) : Prop := is_finite 53 1024 x = true.
(** The unit roundoff 2^-53 and the largest underflow error 2^-1075. *)
Definition uro : R := / 2 ^ 53.
Definition eta : R := / 2 ^ 1075.

Local Instance prec53 : Prec_gt_0 53.
Proof. reflexivity. Qed.
Local Notation rnd := (round radix2 (FLT_exp (-1074) 53) (Znearest (fun x => negb (Z.even x)))).

Lemma bpow_pow (p : positive) : bpow radix2 (Zpos p) = 2 ^ Pos.to_nat p.
Proof. rewrite bpow_powerRZ. reflexivity. Qed.
Lemma uro_pos : 0 < uro.
Proof. apply Rinv_0_lt_compat, pow_lt. lra. Qed.
Lemma eta_pos : 0 < eta.
Proof. apply Rinv_0_lt_compat, pow_lt. lra. Qed.
Lemma uro_ro : u_ro radix2 53 = uro.
Proof.
  unfold u_ro, uro. replace (/ 2) with (bpow radix2 (-1)) by (cbn; lra). rewrite <- bpow_plus.
  change (-1 + (- (53) + 1))%Z with (Z.opp 53). rewrite bpow_opp, bpow_pow. reflexivity.
Qed.
Lemma eta_bpow : / 2 * bpow radix2 (-1074) = eta.
Proof.
  unfold eta. replace (/ 2) with (bpow radix2 (-1)) by (cbn; lra). rewrite <- bpow_plus.
  change (-1 + -1074)%Z with (Z.opp 1075). rewrite bpow_opp, bpow_pow. reflexivity.
Qed.

Lemma fin_mult a b : fin (b64_mult mode_NE a b) -> fin a /\ fin b /\ val (b64_mult mode_NE a b) = rnd (val a * val b).
Proof.
  unfold fin, val, b64_mult. intros H.
  match type of H with context [Bmult _ _ ?p ?q ?n _ _ _] => pose proof (Bmult_correct 53 1024 p q n mode_NE a b) as C end. cbv zeta in C.
  destruct (Rlt_bool _ _).
  - destruct C as (C1 & C2 & _). rewrite C2 in H. apply andb_true_iff in H as [Ha Hb]. split; [exact Ha|]. split; [exact Hb|exact C1].
  - exfalso. apply (f_equal (is_finite_FF)) in C. rewrite is_finite_B2FF, H in C. discriminate C.
Qed.
Lemma fin_plus a b : fin (b64_plus mode_NE a b) -> fin a /\ fin b /\ val (b64_plus mode_NE a b) = rnd (val a + val b).
Proof.
  unfold fin, val, b64_plus. intros H.
  assert (F : is_finite 53 1024 a = true /\ is_finite 53 1024 b = true).
  { destruct a as [sa|sa|sa pa Ha|sa ma ea Ha], b as [sb|sb|sb pb Hb|sb mb eb Hb]; try (split; reflexivity); exfalso; cbn in H; try discriminate H;
      destruct sa, sb; cbn in H; discriminate H. }
  destruct F as [Fa Fb]. split; [exact Fa|]. split; [exact Fb|].
  match type of H with context [Bplus _ _ ?p ?q ?n _ _ _] => pose proof (Bplus_correct 53 1024 p q n mode_NE a b Fa Fb) as C end. cbv zeta in C.
  destruct (Rlt_bool _ _); [exact (proj1 C)|].
  exfalso. destruct C as [C _]. apply (f_equal (is_finite_FF)) in C. rewrite is_finite_B2FF, H in C. discriminate C.
Qed.
(** One multiplication and one addition. *)
Lemma mult_error x y : exists d e, Rabs d <= uro /\ Rabs e <= eta /\ rnd (x * y) = x * y * (1 + d) + e.
Proof.
  destruct (relative_error_N_FLT'_ex radix2 (-1074) 53 ltac:(reflexivity) (fun x => negb (Z.even x)) (x * y)) as (d & e & Hd & He & _ & E).
  exists d, e. split; [|split; [rewrite <- eta_bpow; exact He|exact E]].
  eapply Rle_trans; [exact Hd|]. rewrite <- uro_ro. apply u_rod1pu_ro_le_u_ro.
Qed.
Lemma plus_error a b : exists d, Rabs d <= uro /\ rnd (val a + val b) = (val a + val b) * (1 + d).
Proof.
  destruct (FLT_plus_error_N_ex radix2 (-1074) 53 (fun x => negb (Z.even x)) (val a) (val b)) as (d & Hd & E).
  - apply (generic_format_B2R 53 1024).
  - apply (generic_format_B2R 53 1024).
  - exists d. split; [|exact E]. eapply Rle_trans; [exact Hd|]. rewrite <- uro_ro. apply u_rod1pu_ro_le_u_ro.
Qed.

Local Existing Instance F64Scalar.
(** The error of a left-to-right sum of products. *)
Definition dot_bound (n : nat) (a b : nat -> R) : R :=
  ((1 + uro) ^ n - 1) * rsum n (fun i => Rabs (a i * b i)) + INR n * eta * (1 + uro) ^ n.

Lemma Rabs3 x y z : Rabs (x + y + z) <= Rabs x + Rabs y + Rabs z.
Proof. eapply Rle_trans; [apply Rabs_triang|]. pose proof (Rabs_triang x y). lra. Qed.

Lemma ssum_error (a b : nat -> f64) : forall n, fin (ssum n (fun i => smul (a i) (b i))) ->
  Rabs (val (ssum n (fun i => smul (a i) (b i))) - rsum n (fun i => val (a i) * val (b i))) <= dot_bound n (fun i => val (a i)) (fun i => val (b i)).
Proof.
  pose proof uro_pos as UP. pose proof eta_pos as EP.
  induction n as [|n IH]; intros HF.
  - cbn. unfold dot_bound. cbn. rewrite Rabs_pos_eq; lra.
  - cbn [ssum rsum] in *. set (s := ssum n (fun i => smul (a i) (b i))) in *. set (S0 := rsum n (fun i => val (a i) * val (b i))) in *.
    cbn [sadd smul F64Scalar] in *.
    destruct (fin_plus _ _ HF) as (Fs & Fp & E). rewrite E. destruct (fin_mult _ _ Fp) as (_ & _ & Ep). rewrite Ep.
    specialize (IH Fs). unfold dot_bound in *. cbn [rsum]. set (A := rsum n (fun i => Rabs (val (a i) * val (b i)))) in *.
    destruct (mult_error (val (a n)) (val (b n))) as (d & e & Hd & He & EM). set (t := val (a n) * val (b n)) in *.
    destruct (plus_error s (b64_mult mode_NE (a n) (b n))) as (d' & Hd' & EA). rewrite Ep in EA.
    assert (HA : Rabs S0 <= A) by apply rsum_abs. pose proof (Rabs_pos t) as Tp. pose proof (Rabs_pos S0) as Sp.
    destruct n as [|n].
    + (* the first product is added to zero exactly *)
      assert (Z0 : val s = 0) by reflexivity. rewrite Z0, Rplus_0_l.
      rewrite round_generic; [|apply valid_rnd_N|apply generic_format_round; [apply FLT_exp_valid; reflexivity|apply valid_rnd_N]].
      unfold S0. cbn [rsum]. rewrite EM. replace (t * (1 + d) + e - (0 + t)) with (t * d + e) by ring.
      eapply Rle_trans; [apply Rabs_triang|]. rewrite Rabs_mult. cbn [INR pow]. unfold A. cbn [rsum].
      assert (Rabs t * Rabs d <= Rabs t * uro) by (apply Rmult_le_compat_l; lra). nra.
    + rewrite EA, EM. set (q := (1 + uro) ^ S n) in *.
      assert (Q1 : 1 + uro <= q).
      { unfold q. cbn [pow]. rewrite <- (Rmult_1_r (1 + uro)) at 1. apply Rmult_le_compat_l; [lra|]. apply pow_R1_Rle. lra. }
      replace ((1 + uro) ^ S (S n)) with ((1 + uro) * q) by reflexivity.
      replace (INR (S (S n))) with (INR (S n) + 1) by (rewrite (S_INR (S n)); reflexivity).
      set (k := INR (S n)) in *. assert (K0 : 0 <= k) by apply pos_INR. clearbody q k A S0 t s.
      replace ((val s + (t * (1 + d) + e)) * (1 + d') - (S0 + t)) with ((val s - S0) * (1 + d') + (S0 * d' + (t * (d + d' + d * d'))) + e * (1 + d')) by ring.
      eapply Rle_trans; [apply Rabs3|].
      assert (D1 : Rabs (1 + d') <= 1 + uro).
      { eapply Rle_trans; [apply Rabs_triang|]. rewrite Rabs_R1. lra. }
      assert (B1 : Rabs ((val s - S0) * (1 + d')) <= ((q - 1) * A + k * eta * q) * (1 + uro)).
      { rewrite Rabs_mult. apply Rmult_le_compat; try apply Rabs_pos; assumption. }
      assert (B2 : Rabs (S0 * d' + t * (d + d' + d * d')) <= A * uro + Rabs t * (uro + uro + uro * uro)).
      { eapply Rle_trans; [apply Rabs_triang|]. rewrite !Rabs_mult. apply Rplus_le_compat.
        - apply Rmult_le_compat; try apply Rabs_pos; assumption.
        - apply Rmult_le_compat_l; [lra|]. eapply Rle_trans; [apply Rabs3|]. rewrite Rabs_mult.
          assert (Rabs d * Rabs d' <= uro * uro) by (apply Rmult_le_compat; try apply Rabs_pos; assumption). lra. }
      assert (B3 : Rabs (e * (1 + d')) <= eta * (1 + uro)).
      { rewrite Rabs_mult. apply Rmult_le_compat; try apply Rabs_pos; assumption. }
      eapply Rle_trans; [apply Rplus_le_compat; [apply Rplus_le_compat; [exact B1|exact B2]|exact B3]|].
      assert (X1 : Rabs t * (uro + uro + uro * uro) <= Rabs t * ((1 + uro) * q - 1)).
      { apply Rmult_le_compat_l; [lra|]. assert ((1 + uro) * (1 + uro) <= (1 + uro) * q) by (apply Rmult_le_compat_l; lra). lra. }
      assert (X2 : eta * (1 + uro) <= eta * ((1 + uro) * q)).
      { apply Rmult_le_compat_l; [lra|]. rewrite <- (Rmult_1_r (1 + uro)) at 1. apply Rmult_le_compat_l; lra. }
      lra.
Qed.

(** C81: dot products of any dimension. *)
Theorem C81_dot_error (cfg : Cfg) (n : nat) (u v : list f64) (a b : nat -> f64) (r : f64) :
  repV n u a -> repV n v b -> vec_dot n u v = Ok r -> fin r ->
  Rabs (val r - rsum n (fun i => val (a i) * val (b i))) <=
    ((1 + / 2 ^ 53) ^ n - 1) * rsum n (fun i => Rabs (val (a i) * val (b i))) + INR n * / 2 ^ 1075 * (1 + / 2 ^ 53) ^ n.
Proof.
  intros Hu Hv E F. rewrite (vec_dot_spec n u v a b Hu Hv) in E. injection E as <-. exact (ssum_error a b n F).
Qed.
(** C81: every finite cell of a matrix product of any shape. *)
Theorem C81_matrix_product_error (cfg : Cfg) (M P N : nat) (m l r : list f64) (f fl fr : nat -> nat -> f64) :
  repM M N m f -> repM M P l fl -> repM P N r fr ->
  exists x g, mat_multiply M P N m (Val l) (Val r) = Ok x /\ repM M N x g /\
  forall i j, (i < M)%nat -> (j < N)%nat -> fin (g i j) ->
  Rabs (val (g i j) - mmulR P (fun i k => val (fl i k)) (fun k j => val (fr k j)) i j) <=
    ((1 + / 2 ^ 53) ^ P - 1) * rsum P (fun k => Rabs (val (fl i k) * val (fr k j))) + INR P * / 2 ^ 1075 * (1 + / 2 ^ 53) ^ P.
Proof.
  intros Hm Hl Hr. destruct (mat_multiply_spec M P N m l r f fl fr Hm Hl Hr) as (x & E & H).
  exists x. eexists. split; [exact E|]. split; [exact H|]. intros i j Hi Hj F. exact (ssum_error (fun k => fl i k) (fun k => fr k j) P F).
Qed.
(** C81: a finite result means that no intermediate result overflowed and that
    all operands were finite. *)
Theorem C81_finite_means_no_overflow (cfg : Cfg) (n : nat) (u v : list f64) (a b : nat -> f64) (r : f64) :
  repV n u a -> repV n v b -> vec_dot n u v = Ok r -> fin r -> forall i, (i < n)%nat -> fin (a i) /\ fin (b i).
Proof.
  intros Hu Hv E F. rewrite (vec_dot_spec n u v a b Hu Hv) in E. injection E as <-.
  revert F. clear. induction n as [|n IH]; intros F i Hi; [lia|]. cbn [ssum sadd smul F64Scalar] in F.
  destruct (fin_plus _ _ F) as (F1 & F2 & _). destruct (fin_mult _ _ F2) as (G1 & G2 & _).
  destruct (Nat.eq_dec i n) as [->|Hne]; [auto|]. apply (IH F1). lia.
Qed.
(** For n <= 2^20 the factor (1 + u)^n - 1 is at most 1.001 n u: the bound is
    about n units of roundoff. *)
Example C81_hypotheses_met : forall cfg : Cfg, exists r,
  vec_dot 2 [f64_one; f64_half] [f64_two; f64_one] = Ok r /\ fin r /\ bits_of_b64 r = 0x4004000000000000%Z.
Proof. intros cfg. eexists. unfold vec_dot, for_, vat. cbn -[b64_plus b64_mult f64_zero f64_one f64_half f64_two]. destruct safe; (split; [reflexivity|]; split; vm_compute; reflexivity). Qed.
Print Assumptions C81_dot_error.
Print Assumptions C81_matrix_product_error.
Print Assumptions C81_finite_means_no_overflow.
