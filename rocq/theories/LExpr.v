(** Forward error analysis of straight-line code made of +, -, * and unary
    minus, once and for all: an expression, its value in floating point, its
    exact value, the sum of the absolute values of its terms, and a bound on the
    distance of the first two in terms of the third. *)
From Coq Require Import ZArith Reals Lra Lia.
From Flocq Require Import Core.Core.
From Verif Require Export Scalar InstR.
Local Open Scope R_scope.
Local Notation bp := (bpow radix2).

Inductive expr : Type :=
| EVar (i j : nat) | EZero | EOne
| EAdd (a b : expr) | ESub (a b : expr) | EMul (a b : expr) | EOpp (a : expr).

(** Expressions as an element type: running an operation on them yields the
    expression it computes.  Division, roots and comparisons are not available
    (the comparisons answer [true]). *)
Definition ExprScalar : Scalar expr := {|
  szero := EZero; sone := EOne; shalf := EOne; stwo := EAdd EOne EOne;
  sadd := EAdd; ssub := ESub; smul := EMul; sopp := EOpp; sabs := fun a => a;
  sdiv _ _ := UB; ssqrt _ := UB;
  sltb _ _ := true; sleb _ _ := true; seqb _ _ := true; sbits _ _ := true;
  smax := EZero; slowest := EZero; seps := EZero |}.

(** Value in any element type. *)
Fixpoint eval {T} {ST : Scalar T} (env : nat -> nat -> T) (e : expr) : T :=
  match e with
  | EVar i j => env i j | EZero => szero | EOne => sone
  | EAdd a b => sadd (eval env a) (eval env b)
  | ESub a b => ssub (eval env a) (eval env b)
  | EMul a b => smul (eval env a) (eval env b)
  | EOpp a => sopp (eval env a)
  end.
(** Exact value. *)
Fixpoint evalR (env : nat -> nat -> R) (e : expr) : R :=
  match e with
  | EVar i j => env i j | EZero => 0 | EOne => 1
  | EAdd a b => evalR env a + evalR env b
  | ESub a b => evalR env a - evalR env b
  | EMul a b => evalR env a * evalR env b
  | EOpp a => - evalR env a
  end.
(** The same with absolute values throughout. *)
Fixpoint evalA (env : nat -> nat -> R) (e : expr) : R :=
  match e with
  | EVar i j => Rabs (env i j) | EZero => 0 | EOne => 1
  | EAdd a b | ESub a b => evalA env a + evalA env b
  | EMul a b => evalA env a * evalA env b
  | EOpp a => evalA env a
  end.
(** Number of roundings on the worst path. *)
Fixpoint dep (e : expr) : nat :=
  match e with
  | EVar _ _ | EZero | EOne => 0
  | EAdd a b | ESub a b => S (Nat.max (dep a) (dep b))
  | EMul a b => S (dep a + dep b)
  | EOpp a => dep a
  end.
(** |value| <= 2^(deg * k + off) if all cells are at most 2^k. *)
Fixpoint deg (e : expr) : nat :=
  match e with
  | EVar _ _ => 1 | EZero | EOne => 0
  | EAdd a b | ESub a b => Nat.max (deg a) (deg b)
  | EMul a b => deg a + deg b
  | EOpp a => deg a
  end.
Fixpoint off (e : expr) : nat :=
  match e with
  | EVar _ _ | EZero | EOne => 0
  | EAdd a b | ESub a b => S (Nat.max (off a) (off b))
  | EMul a b => off a + off b
  | EOpp a => off a
  end.
(** The loss to underflow is at most 2^(udeg * k + uoff) times the rounding unit
    of the subnormal range. *)
Fixpoint udeg (e : expr) : nat :=
  match e with
  | EVar _ _ | EZero | EOne => 0
  | EAdd a b | ESub a b => Nat.max (udeg a) (udeg b)
  | EMul a b => Nat.max (deg a + udeg b) (Nat.max (deg b + udeg a) (udeg a + udeg b))
  | EOpp a => udeg a
  end.
Fixpoint uoff (e : expr) : nat :=
  match e with
  | EVar _ _ | EZero | EOne => 0
  | EAdd a b | ESub a b => S (Nat.max (uoff a) (uoff b))
  | EMul a b => S (S (Nat.max (off a + uoff b) (Nat.max (off b + uoff a) (uoff a + uoff b))))
  | EOpp a => uoff a
  end.

Definition bnd (k : Z) (e : expr) : Z := (Z.of_nat (deg e) * k + Z.of_nat (off e))%Z.
Definition ubd (k : Z) (e : expr) : Z := (Z.of_nat (udeg e) * k + Z.of_nat (uoff e))%Z.

Lemma evalA_pos env e : 0 <= evalA env e.
Proof. induction e; cbn; try lra; [apply Rabs_pos|apply Rmult_le_pos; assumption]. Qed.
Lemma evalR_le env e : Rabs (evalR env e) <= evalA env e.
Proof.
  induction e; cbn; try (rewrite ?Rabs_R0, ?Rabs_R1; lra).
  - eapply Rle_trans; [apply Rabs_triang|]. lra.
  - unfold Rminus. eapply Rle_trans; [apply Rabs_triang|]. rewrite Rabs_Ropp. lra.
  - rewrite Rabs_mult. apply Rmult_le_compat; try apply Rabs_pos; assumption.
  - rewrite Rabs_Ropp. assumption.
Qed.

(** Facts about real numbers behind the induction. *)
Lemma err_mul ga gb Aa Ab ma mb X Y x y z u eta :
  1 <= ga -> 1 <= gb -> 0 <= u -> 0 <= eta -> 0 <= ma -> 0 <= mb -> Rabs X <= Aa -> Rabs Y <= Ab ->
  Rabs (x - X) <= ga * (Aa + ma) - Aa -> Rabs (y - Y) <= gb * (Ab + mb) - Ab ->
  Rabs (z - x * y) <= u * Rabs (x * y) + eta ->
  Rabs (z - X * Y) <= (1 + u) * (ga * gb) * (Aa * Ab + (Aa * mb + Ab * ma + ma * mb + eta)) - Aa * Ab.
Proof.
  intros Ha Hb Hu He Hma Hmb HX HY Ex Ey Ez.
  assert (Bx : Rabs x <= ga * (Aa + ma)).
  { replace x with (X + (x - X)) by ring. eapply Rle_trans; [apply Rabs_triang|]. lra. }
  assert (By : Rabs y <= gb * (Ab + mb)).
  { replace y with (Y + (y - Y)) by ring. eapply Rle_trans; [apply Rabs_triang|]. lra. }
  assert (PA : 0 <= Aa) by (eapply Rle_trans; [apply Rabs_pos|exact HX]).
  assert (PB : 0 <= Ab) by (eapply Rle_trans; [apply Rabs_pos|exact HY]).
  set (G := ga * (Aa + ma)) in *. set (H := gb * (Ab + mb)) in *.
  assert (Bxy : Rabs (x * y) <= G * H).
  { rewrite Rabs_mult. apply Rmult_le_compat; try apply Rabs_pos; assumption. }
  assert (E1 : Rabs (x * y - X * Y) <= G * H - Aa * Ab).
  { replace (x * y - X * Y) with (x * (y - Y) + (x - X) * Y) by ring.
    eapply Rle_trans; [apply Rabs_triang|]. rewrite !Rabs_mult.
    replace (G * H - Aa * Ab) with (G * (H - Ab) + (G - Aa) * Ab) by ring.
    apply Rplus_le_compat; apply Rmult_le_compat; try apply Rabs_pos; assumption. }
  assert (E2 : Rabs (z - X * Y) <= (1 + u) * (G * H) + eta - Aa * Ab).
  { replace (z - X * Y) with ((z - x * y) + (x * y - X * Y)) by ring. eapply Rle_trans; [apply Rabs_triang|].
    assert (u * Rabs (x * y) <= u * (G * H)) by (apply Rmult_le_compat_l; assumption). lra. }
  eapply Rle_trans; [exact E2|]. apply Rplus_le_compat_r.
  replace ((1 + u) * (ga * gb) * (Aa * Ab + (Aa * mb + Ab * ma + ma * mb + eta)))
    with ((1 + u) * (G * H) + (1 + u) * (ga * gb) * eta) by (unfold G, H; ring).
  apply Rplus_le_compat_l. rewrite <- (Rmult_1_l eta) at 1. apply Rmult_le_compat_r; [exact He|].
  rewrite <- (Rmult_1_l 1). apply Rmult_le_compat; try lra. rewrite <- (Rmult_1_l 1). apply Rmult_le_compat; lra.
Qed.
Lemma err_add g ga gb Aa Ab ma mb X Y x y z u :
  1 <= ga <= g -> 1 <= gb <= g -> 0 <= u -> 0 <= ma -> 0 <= mb -> Rabs X <= Aa -> Rabs Y <= Ab ->
  Rabs (x - X) <= ga * (Aa + ma) - Aa -> Rabs (y - Y) <= gb * (Ab + mb) - Ab ->
  Rabs (z - (x + y)) <= u * Rabs (x + y) ->
  Rabs (z - (X + Y)) <= (1 + u) * g * (Aa + Ab + (ma + mb)) - (Aa + Ab).
Proof.
  intros Ha Hb Hu Hma Hmb HX HY Ex Ey Ez.
  assert (PA : 0 <= Aa) by (eapply Rle_trans; [apply Rabs_pos|exact HX]).
  assert (PB : 0 <= Ab) by (eapply Rle_trans; [apply Rabs_pos|exact HY]).
  assert (Ga : ga * (Aa + ma) <= g * (Aa + ma)) by (apply Rmult_le_compat_r; lra).
  assert (Gb : gb * (Ab + mb) <= g * (Ab + mb)) by (apply Rmult_le_compat_r; lra).
  set (G := g * (Aa + ma)) in *. set (H := g * (Ab + mb)) in *.
  assert (Bx : Rabs x <= G).
  { replace x with (X + (x - X)) by ring. eapply Rle_trans; [apply Rabs_triang|]. lra. }
  assert (By : Rabs y <= H).
  { replace y with (Y + (y - Y)) by ring. eapply Rle_trans; [apply Rabs_triang|]. lra. }
  assert (Bxy : Rabs (x + y) <= G + H) by (eapply Rle_trans; [apply Rabs_triang|]; lra).
  replace (z - (X + Y)) with ((z - (x + y)) + ((x - X) + (y - Y))) by ring.
  eapply Rle_trans; [apply Rabs_triang|].
  assert (Rabs ((x - X) + (y - Y)) <= G - Aa + (H - Ab)) by (eapply Rle_trans; [apply Rabs_triang|]; lra).
  assert (u * Rabs (x + y) <= u * (G + H)) by (apply Rmult_le_compat_l; assumption).
  replace ((1 + u) * g * (Aa + Ab + (ma + mb)) - (Aa + Ab)) with (u * (G + H) + (G - Aa + (H - Ab))) by (unfold G, H; ring). lra.
Qed.

Lemma bp_add i j : bp i + bp j <= bp (Z.max i j + 1).
Proof.
  rewrite bpow_plus. change (bp 1) with 2. assert (bp i <= bp (Z.max i j)) by (apply bpow_le; lia).
  assert (bp j <= bp (Z.max i j)) by (apply bpow_le; lia). lra.
Qed.

Section Format.
(** A floating-point format: [okF i x] says that x is finite and at most 2^i. *)
Context {F : Type} {ST : Scalar F} (val : F -> R) (okF : Z -> F -> Prop) (u eta : R) (emax : Z)
  (Hu : 0 <= u) (Heta : 0 <= eta <= 1) (Hemax : (0 < emax)%Z)
  (okF_val : forall i x, okF i x -> Rabs (val x) <= bp i)
  (okF_le : forall i j x, okF i x -> (i <= j)%Z -> okF j x)
  (H0 : okF 0%Z szero /\ val szero = 0) (H1 : okF 0%Z sone /\ val sone = 1)
  (Hmul : forall i j a b, okF i a -> okF j b -> (0 <= i + j < emax)%Z ->
     okF (i + j)%Z (smul a b) /\ Rabs (val (smul a b) - val a * val b) <= u * Rabs (val a * val b) + eta)
  (Hadd : forall i a b, okF i a -> okF i b -> (0 <= i + 1 < emax)%Z ->
     okF (i + 1)%Z (sadd a b) /\ Rabs (val (sadd a b) - (val a + val b)) <= u * Rabs (val a + val b))
  (Hsub : forall i a b, okF i a -> okF i b -> (0 <= i + 1 < emax)%Z ->
     okF (i + 1)%Z (ssub a b) /\ Rabs (val (ssub a b) - (val a - val b)) <= u * Rabs (val a - val b))
  (Hopp : forall i a, okF i a -> okF i (sopp a) /\ val (sopp a) = - val a).

Fixpoint und (env : nat -> nat -> R) (e : expr) : R :=
  match e with
  | EVar _ _ | EZero | EOne => 0
  | EAdd a b | ESub a b => und env a + und env b
  | EMul a b => evalA env a * und env b + evalA env b * und env a + und env a * und env b + eta
  | EOpp a => und env a
  end.
Lemma und_pos env e : 0 <= und env e.
Proof.
  induction e; cbn; try lra. pose proof (evalA_pos env e1). pose proof (evalA_pos env e2).
  assert (0 <= evalA env e1 * und env e2) by (apply Rmult_le_pos; assumption).
  assert (0 <= evalA env e2 * und env e1) by (apply Rmult_le_pos; assumption).
  assert (0 <= und env e1 * und env e2) by (apply Rmult_le_pos; assumption). lra.
Qed.
Lemma bnd_nonneg k e : (0 <= k)%Z -> (0 <= bnd k e)%Z.
Proof. unfold bnd. intros. nia. Qed.
Lemma bnd_max k (a b c d : nat) : (0 <= k)%Z ->
  (Z.of_nat a * k + Z.of_nat c <= Z.of_nat (Nat.max a b) * k + Z.of_nat (S (Nat.max c d)) - 1)%Z /\
  (Z.of_nat b * k + Z.of_nat d <= Z.of_nat (Nat.max a b) * k + Z.of_nat (S (Nat.max c d)) - 1)%Z.
Proof.
  intros Hk. assert (Z.of_nat a * k <= Z.of_nat (Nat.max a b) * k)%Z by (apply Z.mul_le_mono_nonneg_r; lia).
  assert (Z.of_nat b * k <= Z.of_nat (Nat.max a b) * k)%Z by (apply Z.mul_le_mono_nonneg_r; lia). lia.
Qed.
Lemma evalA_bnd k env e : (0 <= k)%Z -> (forall i j, Rabs (env i j) <= bp k) -> evalA env e <= bp (bnd k e).
Proof.
  intros Hk He. induction e; unfold bnd in *; cbn -[bpow Z.of_nat Z.mul Z.add].
  - eapply Rle_trans; [apply He|]. apply bpow_le. lia.
  - apply bpow_ge_0.
  - change 1 with (bp 0). apply bpow_le. lia.
  - eapply Rle_trans; [apply Rplus_le_compat; eassumption|]. eapply Rle_trans; [apply bp_add|]. apply bpow_le. nia.
  - eapply Rle_trans; [apply Rplus_le_compat; eassumption|]. eapply Rle_trans; [apply bp_add|]. apply bpow_le. nia.
  - eapply Rle_trans; [apply Rmult_le_compat; try apply evalA_pos; eassumption|]. rewrite <- bpow_plus. apply bpow_le. nia.
  - exact IHe.
Qed.
Lemma und_ubd k env e : (0 <= k)%Z -> (forall i j, Rabs (env i j) <= bp k) -> und env e <= eta * bp (ubd k e).
Proof.
  intros Hk He. assert (E0 : forall z, 0 <= eta * bp z) by (intros z; apply Rmult_le_pos; [lra|apply bpow_ge_0]).
  induction e; unfold ubd in *; cbn -[bpow Z.of_nat Z.mul Z.add]; try apply E0.
  - eapply Rle_trans; [apply Rplus_le_compat; eassumption|]. rewrite <- Rmult_plus_distr_l. apply Rmult_le_compat_l; [lra|].
    eapply Rle_trans; [apply bp_add|]. apply bpow_le. nia.
  - eapply Rle_trans; [apply Rplus_le_compat; eassumption|]. rewrite <- Rmult_plus_distr_l. apply Rmult_le_compat_l; [lra|].
    eapply Rle_trans; [apply bp_add|]. apply bpow_le. nia.
  - pose proof (evalA_bnd k env e1 Hk He) as A1. pose proof (evalA_bnd k env e2 Hk He) as A2. unfold bnd in A1, A2.
    set (W := (Z.of_nat (Nat.max (deg e1 + udeg e2) (Nat.max (deg e2 + udeg e1) (udeg e1 + udeg e2))) * k +
       Z.of_nat (Nat.max (off e1 + uoff e2) (Nat.max (off e2 + uoff e1) (uoff e1 + uoff e2))))%Z).
    assert (T1 : evalA env e1 * und env e2 <= eta * bp W).
    { eapply Rle_trans; [apply Rmult_le_compat; [apply evalA_pos|apply und_pos|exact A1|exact IHe2]|].
      rewrite <- Rmult_assoc, (Rmult_comm _ eta), Rmult_assoc, <- bpow_plus. apply Rmult_le_compat_l; [lra|]. apply bpow_le. unfold W. nia. }
    assert (T2 : evalA env e2 * und env e1 <= eta * bp W).
    { eapply Rle_trans; [apply Rmult_le_compat; [apply evalA_pos|apply und_pos|exact A2|exact IHe1]|].
      rewrite <- Rmult_assoc, (Rmult_comm _ eta), Rmult_assoc, <- bpow_plus. apply Rmult_le_compat_l; [lra|]. apply bpow_le. unfold W. nia. }
    assert (T3 : und env e1 * und env e2 <= eta * bp W).
    { eapply Rle_trans; [apply Rmult_le_compat; [apply und_pos|apply und_pos|exact IHe1|exact IHe2]|].
      match goal with |- eta * ?p * (eta * ?q) <= _ => replace (eta * p * (eta * q)) with (eta * (eta * (p * q))) by ring end.
      rewrite <- bpow_plus. apply Rmult_le_compat_l; [lra|].
      rewrite <- (Rmult_1_l (bp W)). apply Rmult_le_compat; try lra; [apply bpow_ge_0|]. apply bpow_le. unfold W. nia. }
    assert (T4 : eta <= eta * bp W).
    { rewrite <- (Rmult_1_r eta) at 1. apply Rmult_le_compat_l; [lra|]. change 1 with (bp 0). apply bpow_le. unfold W. nia. }
    eapply Rle_trans with (4 * (eta * bp W)); [lra|].
    match goal with |- _ <= eta * bp ?z => replace z with (W + 2)%Z by (unfold W; lia) end.
    rewrite bpow_plus. change (bp 2) with 4. apply Req_le. ring.
  - exact IHe.
Qed.

Lemma eval_error k env e : (0 <= k)%Z -> (forall i j, okF k (env i j)) -> (bnd k e < emax)%Z ->
  okF (bnd k e) (eval env e) /\
  Rabs (val (eval env e) - evalR (fun i j => val (env i j)) e)
    <= (1 + u) ^ dep e * (evalA (fun i j => val (env i j)) e + und (fun i j => val (env i j)) e) - evalA (fun i j => val (env i j)) e.
Proof.
  intros Hk He. set (v := fun i j => val (env i j)).
  assert (P1 : forall n, 1 <= (1 + u) ^ n).
  { intros n. apply pow_R1_Rle. lra. }
  assert (MAX : forall m n, (m <= n)%nat -> (1 + u) ^ m <= (1 + u) ^ n) by (intros; apply Rle_pow; [lra|assumption]).
  induction e; intros HB.
  - cbn [eval evalR evalA und dep pow]. split; [eapply okF_le; [apply He|]; unfold bnd; cbn [deg off]; lia|]. unfold v. rewrite Rminus_diag_eq, Rabs_R0 by reflexivity. lra.
  - cbn [eval evalR evalA und dep pow]. split; [eapply okF_le; [apply H0|]; unfold bnd; cbn [deg off]; lia|]. rewrite (proj2 H0), Rminus_diag_eq, Rabs_R0 by reflexivity. lra.
  - cbn [eval evalR evalA und dep pow]. split; [eapply okF_le; [apply H1|]; unfold bnd; cbn [deg off]; lia|]. rewrite (proj2 H1), Rminus_diag_eq, Rabs_R0 by reflexivity. lra.
  - assert (B1 : (0 <= bnd k e1 <= bnd k (EAdd e1 e2) - 1)%Z) by (split; [apply bnd_nonneg; exact Hk|unfold bnd; apply (bnd_max k (deg e1) (deg e2) (off e1) (off e2) Hk)]).
    assert (B2 : (0 <= bnd k e2 <= bnd k (EAdd e1 e2) - 1)%Z) by (split; [apply bnd_nonneg; exact Hk|unfold bnd; apply (bnd_max k (deg e1) (deg e2) (off e1) (off e2) Hk)]).
    destruct IHe1 as (O1 & E1); [lia|]. destruct IHe2 as (O2 & E2); [lia|].
    apply (okF_le _ (bnd k (EAdd e1 e2) - 1)%Z) in O1; [|lia]. apply (okF_le _ (bnd k (EAdd e1 e2) - 1)%Z) in O2; [|lia].
    destruct (Hadd _ _ _ O1 O2) as (O & E); [lia|]. replace (bnd k (EAdd e1 e2) - 1 + 1)%Z with (bnd k (EAdd e1 e2)) in O by lia.
    split; [exact O|]. cbn [eval evalR evalA und dep]. rewrite <- tech_pow_Rmult.
    exact (err_add _ _ _ _ _ _ _ _ _ _ _ _ u (conj (P1 _) (MAX _ _ (Nat.le_max_l _ _))) (conj (P1 _) (MAX _ _ (Nat.le_max_r _ _))) Hu
      (und_pos _ _) (und_pos _ _) (evalR_le _ _) (evalR_le _ _) E1 E2 E).
  - assert (B1 : (0 <= bnd k e1 <= bnd k (ESub e1 e2) - 1)%Z) by (split; [apply bnd_nonneg; exact Hk|unfold bnd; apply (bnd_max k (deg e1) (deg e2) (off e1) (off e2) Hk)]).
    assert (B2 : (0 <= bnd k e2 <= bnd k (ESub e1 e2) - 1)%Z) by (split; [apply bnd_nonneg; exact Hk|unfold bnd; apply (bnd_max k (deg e1) (deg e2) (off e1) (off e2) Hk)]).
    destruct IHe1 as (O1 & E1); [lia|]. destruct IHe2 as (O2 & E2); [lia|].
    apply (okF_le _ (bnd k (ESub e1 e2) - 1)%Z) in O1; [|lia]. apply (okF_le _ (bnd k (ESub e1 e2) - 1)%Z) in O2; [|lia].
    destruct (Hsub _ _ _ O1 O2) as (O & E); [lia|]. replace (bnd k (ESub e1 e2) - 1 + 1)%Z with (bnd k (ESub e1 e2)) in O by lia.
    split; [exact O|]. cbn [eval evalR evalA und dep]. rewrite <- tech_pow_Rmult.
    assert (E2' : Rabs (- val (eval env e2) - - evalR v e2) <= (1 + u) ^ dep e2 * (evalA v e2 + und v e2) - evalA v e2).
    { replace (- val (eval env e2) - - evalR v e2) with (- (val (eval env e2) - evalR v e2)) by ring. rewrite Rabs_Ropp. exact E2. }
    assert (R2 : Rabs (- evalR v e2) <= evalA v e2) by (rewrite Rabs_Ropp; apply evalR_le).
    exact (err_add _ _ _ _ _ _ _ _ _ _ _ _ u (conj (P1 _) (MAX _ _ (Nat.le_max_l _ _))) (conj (P1 _) (MAX _ _ (Nat.le_max_r _ _))) Hu
      (und_pos _ _) (und_pos _ _) (evalR_le _ _) R2 E1 E2' E).
  - assert (B1 : (0 <= bnd k e1)%Z) by (apply bnd_nonneg; exact Hk).
    assert (B2 : (0 <= bnd k e2)%Z) by (apply bnd_nonneg; exact Hk).
    assert (BM : (bnd k e1 + bnd k e2 = bnd k (EMul e1 e2))%Z) by (unfold bnd; cbn [deg off]; nia).
    destruct IHe1 as (O1 & E1); [lia|]. destruct IHe2 as (O2 & E2); [lia|].
    destruct (Hmul _ _ _ _ O1 O2) as (O & E); [lia|]. rewrite BM in O.
    split; [exact O|]. cbn [eval evalR evalA und dep]. rewrite <- tech_pow_Rmult, pow_add.
    exact (err_mul _ _ _ _ _ _ _ _ _ _ _ u eta (P1 _) (P1 _) Hu (proj1 Heta) (und_pos _ _) (und_pos _ _) (evalR_le _ _) (evalR_le _ _) E1 E2 E).
  - destruct IHe as (O & E); [exact HB|]. destruct (Hopp _ _ O) as (O' & EO). split; [exact O'|].
    cbn [eval evalR evalA und dep]. rewrite EO.
    replace (- val (eval env e) - - evalR v e) with (- (val (eval env e) - evalR v e)) by ring. rewrite Rabs_Ropp. exact E.
Qed.
(** (1+u)^n - 1 <= (n+1) u. *)
Lemma gam n : INR n * INR n * u <= 1 -> (1 + u) ^ n <= 1 + (INR n + 1) * u.
Proof.
  intros Hn. assert (G : forall k, (k <= n)%nat -> (1 + u) ^ k <= 1 + INR k * u + INR k * INR k * u * u).
  { induction k as [|k IH]; intros H; [cbn; lra|]. specialize (IH ltac:(lia)). rewrite <- tech_pow_Rmult, S_INR.
    assert (0 <= INR k) by apply pos_INR. assert (INR k <= INR n) by (apply le_INR; lia).
    assert (INR k * INR k * u <= 1).
    { eapply Rle_trans; [|exact Hn]. apply Rmult_le_compat_r; [exact Hu|]. apply Rmult_le_compat; assumption. }
    eapply Rle_trans; [apply Rmult_le_compat_l; [lra|exact IH]|].
    assert (0 <= u * u) by (apply Rmult_le_pos; assumption).
    assert (INR k * INR k * u * (u * u) <= 1 * (u * u)) by (apply Rmult_le_compat_r; assumption).
    assert (0 <= INR k * (u * u)) by (apply Rmult_le_pos; assumption).
    nra. }
  specialize (G n (Nat.le_refl _)). assert (INR n * INR n * u * u <= 1 * u) by (apply Rmult_le_compat_r; assumption). lra.
Qed.
(** The form used below: relative to the sum of absolute values, plus a loss to
    underflow. *)
Lemma eval_bound k env e (g : R) (w : Z) : (0 <= k)%Z -> (forall i j, okF k (env i j)) -> (bnd k e < emax)%Z ->
  INR (dep e) * INR (dep e) * u <= 1 -> (INR (dep e) + 1) * u <= g -> (ubd k e + 1 <= w)%Z ->
  okF (bnd k e) (eval env e) /\
  Rabs (val (eval env e) - evalR (fun i j => val (env i j)) e) <= g * evalA (fun i j => val (env i j)) e + eta * bp w.
Proof.
  intros Hk He HB Hd Hg Hw. destruct (eval_error k env e Hk He HB) as (O & E). split; [exact O|].
  eapply Rle_trans; [exact E|]. set (v := fun i j => val (env i j)) in *.
  pose proof (gam _ Hd) as G. pose proof (evalA_pos v e) as PA. pose proof (und_pos v e) as PU.
  assert (UB : und v e <= eta * bp (ubd k e)) by (apply und_ubd; [exact Hk|intros i j; apply okF_val, He]).
  set (q := (1 + u) ^ dep e) in *.
  assert (Q2 : q <= 2).
  { destruct (dep e) as [|d] eqn:Ed; [unfold q; cbn; lra|]. rewrite S_INR in *. pose proof (pos_INR d).
    assert (0 <= INR d * INR d * u) by (apply Rmult_le_pos; [apply Rmult_le_pos|]; assumption).
    assert (0 <= INR d * u) by (apply Rmult_le_pos; assumption).
    destruct d as [|d]; [|rewrite S_INR in *; pose proof (pos_INR d); assert (0 <= INR d * u) by (apply Rmult_le_pos; assumption);
      assert (0 <= INR d * INR d * u) by (apply Rmult_le_pos; [apply Rmult_le_pos|]; assumption); nra].
    unfold q. cbn in *. lra. }
  assert (T1 : (q - 1) * evalA v e <= g * evalA v e) by (apply Rmult_le_compat_r; lra).
  assert (T2 : q * und v e <= 2 * (eta * bp (ubd k e))) by (apply Rmult_le_compat; try lra; pose proof (pow_le (1 + u) (dep e)); unfold q; lra).
  assert (T3 : 2 * (eta * bp (ubd k e)) <= eta * bp w).
  { replace (2 * (eta * bp (ubd k e))) with (eta * bp (ubd k e + 1)) by (rewrite bpow_plus; change (bp 1) with 2; ring).
    apply Rmult_le_compat_l; [lra|]. apply bpow_le. exact Hw. }
  replace (q * (evalA v e + und v e) - evalA v e) with ((q - 1) * evalA v e + q * und v e) by ring. lra.
Qed.
End Format.
