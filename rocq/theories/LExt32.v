(** Operations on floats in terms of the numbers they denote (Spec10). *)
From Coq Require Import ZArith Reals Lra Psatz Bool.
From Flocq Require Import Core.Core IEEE754.BinarySingleNaN IEEE754.Binary IEEE754.Bits Relative Plus_error.
From Verif Require Import InstF32  LVector LMatrix Spec LSum PF32 LF32 Spec10f.
Local Open Scope R_scope.
Local Instance prec53'' : Prec_gt_0 24 := eq_refl.
Local Instance plt : Prec_lt_emax 24 128 := eq_refl.
Local Instance vexp' : Valid_exp (FLT_exp (-149) 24).
Proof. apply FLT_exp_valid. reflexivity. Qed.
Local Notation rnd := (round radix2 (FLT_exp (-149) 24) ZnearestE).
Local Notation bp := (bpow radix2).
Notation BSN := (BinarySingleNaN.binary_float 24 128).
Notation bsn := (B2BSN 24 128).

(** ** [same] is equality of the single-NaN views *)
Lemma same_bsn x y : same x y <-> bsn x = bsn y.
Proof.
  split.
  - intros [->|[H1 H2]]; [reflexivity|]. destruct x, y; try discriminate; reflexivity.
  - intros H. unfold same.
    destruct x as [s|s|s p0 H0|s m e H0], y as [t|t|t p1 H1|t m1 e1 H1]; cbn in H; try discriminate H;
      try (left; injection H as ->; reflexivity); [right; split; reflexivity|].
    left. injection H as -> -> ->. f_equal. apply eqbool_irrelevance.
Qed.
Lemma same_refl x : same x x.
Proof. left. reflexivity. Qed.
Lemma bsn_plus x y : bsn (b32_plus mode_NE x y) = BinarySingleNaN.Bplus mode_NE (bsn x) (bsn y).
Proof. apply B2BSN_BSN2B. Qed.
Lemma bsn_minus x y : bsn (b32_minus mode_NE x y) = BinarySingleNaN.Bminus mode_NE (bsn x) (bsn y).
Proof. apply B2BSN_BSN2B. Qed.
Lemma bsn_mult x y : bsn (b32_mult mode_NE x y) = BinarySingleNaN.Bmult mode_NE (bsn x) (bsn y).
Proof. apply B2BSN_BSN2B. Qed.
Lemma bsn_sqrt x : bsn (b32_sqrt mode_NE x) = BinarySingleNaN.Bsqrt mode_NE (bsn x).
Proof. apply B2BSN_BSN2B. Qed.
Lemma same_plus x y x' y' : same x x' -> same y y' -> same (b32_plus mode_NE x y) (b32_plus mode_NE x' y').
Proof. rewrite !same_bsn, !bsn_plus. intros -> ->. reflexivity. Qed.
Lemma same_minus x y x' y' : same x x' -> same y y' -> same (b32_minus mode_NE x y) (b32_minus mode_NE x' y').
Proof. rewrite !same_bsn, !bsn_minus. intros -> ->. reflexivity. Qed.
Lemma same_mult x y x' y' : same x x' -> same y y' -> same (b32_mult mode_NE x y) (b32_mult mode_NE x' y').
Proof. rewrite !same_bsn, !bsn_mult. intros -> ->. reflexivity. Qed.
Lemma same_sqrt x x' : same x x' -> same (b32_sqrt mode_NE x) (b32_sqrt mode_NE x').
Proof. rewrite !same_bsn, !bsn_sqrt. intros ->. reflexivity. Qed.
Lemma SF2B_ext (a b : SpecFloat.spec_float) (Ha : SpecFloat.valid_binary 24 128 a = true) (Hb : SpecFloat.valid_binary 24 128 b = true) :
  a = b -> SF2B a Ha = SF2B b Hb.
Proof. intros E. apply B2SF_inj. rewrite !B2SF_SF2B. exact E. Qed.
Lemma mult_comm_same x y : same (b32_mult mode_NE x y) (b32_mult mode_NE y x).
Proof.
  apply same_bsn. rewrite !bsn_mult. destruct (bsn x) as [s|s| |s m e H], (bsn y) as [t|t| |t m' e' H']; cbn; try reflexivity; try (f_equal; apply xorb_comm).
  apply SF2B_ext. rewrite xorb_comm, Pos.mul_comm, Z.add_comm. reflexivity.
Qed.
Lemma plus_comm_same x y : same (b32_plus mode_NE x y) (b32_plus mode_NE y x).
Proof.
  apply same_bsn. rewrite !bsn_plus. destruct (bsn x) as [s|s| |s m e H], (bsn y) as [t|t| |t m' e' H']; try reflexivity; try (destruct s, t; reflexivity).
  cbn [BinarySingleNaN.Bplus]. rewrite (Z.min_comm e e'). unfold Fplus_naive. rewrite (Z.add_comm (cond_Zopp s _)). reflexivity.
Qed.
Lemma ssum_same n (f g : nat -> f32) : (forall i, (i < n)%nat -> same (f i) (g i)) -> same (ssum (H := F32Scalar) n f) (ssum (H := F32Scalar) n g).
Proof.
  induction n as [|n IH]; intros H; [apply same_refl|]. cbn [ssum]. apply same_plus; [apply IH; intros; apply H; lia|apply H; lia].
Qed.

(** ** Numbers *)
Definition rnx (z : R) : number := if Rlt_bool (Rabs (rnd z)) (bp 128) then Number (rnd z) else Infinity (Rlt_bool z 0).
Definition nadd (a b : number) : number :=
  match a, b with
  | NotANumber, _ | _, NotANumber => NotANumber
  | Infinity s, Infinity t => if eqb s t then Infinity s else NotANumber
  | Infinity s, Number _ | Number _, Infinity s => Infinity s
  | Number x, Number y => rnx (x + y)
  end.
Definition nmul (a b : number) : number :=
  match a, b with
  | NotANumber, _ | _, NotANumber => NotANumber
  | Infinity s, Infinity t => Infinity (xorb s t)
  | Infinity s, Number y | Number y, Infinity s => if Req_bool y 0 then NotANumber else Infinity (xorb s (Rlt_bool y 0))
  | Number x, Number y => rnx (x * y)
  end.
Definition nsqrt (a : number) : number :=
  match a with
  | NotANumber | Infinity true => NotANumber
  | Infinity false => Infinity false
  | Number x => if Rlt_bool x 0 then NotANumber else Number (rnd (sqrt x))
  end.

Lemma value_fin x : fin x -> value x = Number (val x).
Proof. destruct x; intros H; try discriminate H; reflexivity. Qed.
Lemma value_number x r : value x = Number r -> fin x /\ val x = r.
Proof. destruct x; cbn; intros H; try discriminate H; injection H as <-; split; reflexivity. Qed.
Lemma sign_le0 x : fin x -> Bsign 24 128 x = true -> val x <= 0.
Proof. destruct x as [s|s|s p0 H0|s m e H0]; cbn; intros F E; try discriminate F; [apply Rle_refl|]. subst s. unfold val. cbn. apply Rlt_le, F2R_lt_0. reflexivity. Qed.
Lemma sign_ge0 x : fin x -> Bsign 24 128 x = false -> 0 <= val x.
Proof. destruct x as [s|s|s p0 H0|s m e H0]; cbn; intros F E; try discriminate F; [apply Rle_refl|]. subst s. unfold val. cbn. apply Rlt_le, F2R_gt_0. reflexivity. Qed.
Lemma rnd_0 : rnd 0 = 0.
Proof. apply round_0. apply valid_rnd_N. Qed.
Lemma big_nz z : Rlt_bool (Rabs (rnd z)) (bp 128) = false -> z <> 0.
Proof. intros H E. subst z. rewrite rnd_0, Rabs_R0, Rlt_bool_true in H by apply bpow_gt_0. discriminate H. Qed.
Lemma value_inf x s : B2FF 24 128 x = F754_infinity s -> value x = Infinity s.
Proof. destruct x; cbn; intros H; try discriminate H. injection H as ->. reflexivity. Qed.

Lemma value_plus x y : value (b32_plus mode_NE x y) = nadd (value x) (value y).
Proof.
  destruct (is_finite 24 128 x) eqn:Fx; [destruct (is_finite 24 128 y) eqn:Fy|].
  - rewrite (value_fin x Fx), (value_fin y Fy). cbn [nadd]. unfold rnx.
    pose proof (Bplus_correct 24 128 eq_refl eq_refl binop_nan_pl32 mode_NE x y Fx Fy) as C.
    change (Bplus 24 128 eq_refl eq_refl binop_nan_pl32 mode_NE x y) with (b32_plus mode_NE x y) in C.
    change (SpecFloat.fexp 24 128) with (FLT_exp (-149) 24) in C. cbn [round_mode] in C.
    fold (val x) in C. fold (val y) in C.
    destruct (Rlt_bool (Rabs (rnd (val x + val y))) (bp 128)) eqn:B.
    + destruct C as (C1 & C2 & _). rewrite (value_fin _ C2). f_equal. exact C1.
    + destruct C as (C1 & C2). rewrite (value_inf _ _ C1). f_equal. apply big_nz in B.
      destruct (Bsign 24 128 x) eqn:S.
      * pose proof (sign_le0 x Fx S). pose proof (sign_le0 y Fy (eq_sym C2)). symmetry. apply Rlt_bool_true. lra.
      * pose proof (sign_ge0 x Fx S). pose proof (sign_ge0 y Fy (eq_sym C2)). symmetry. apply Rlt_bool_false. lra.
  - destruct x as [s|s|s p0 H0|s m e H0]; try discriminate Fx; destruct y as [t|t|t p1 H1|t m1 e1 H1]; try discriminate Fy; try reflexivity.
  - destruct x as [s|s|s p0 H0|s m e H0]; try discriminate Fx; destruct y as [t|t|t p1 H1|t m1 e1 H1]; try reflexivity.
    destruct s, t; reflexivity.
Qed.
Lemma value_mult x y : value (b32_mult mode_NE x y) = nmul (value x) (value y).
Proof.
  assert (NZ : forall s m e (H : SpecFloat.bounded 24 128 m e = true), let v := B2R 24 128 (B754_finite 24 128 s m e H) in
    Req_bool v 0 = false /\ Rlt_bool v 0 = s).
  { intros s m e H v. destruct s; unfold v; cbn.
    - assert (F2R (Float radix2 (Z.neg m) e) < 0) by (apply F2R_lt_0; reflexivity). split; [apply Req_bool_false; lra|apply Rlt_bool_true; lra].
    - assert (0 < F2R (Float radix2 (Z.pos m) e)) by (apply F2R_gt_0; reflexivity). split; [apply Req_bool_false; lra|apply Rlt_bool_false; lra]. }
  destruct (is_finite 24 128 x) eqn:Fx; [destruct (is_finite 24 128 y) eqn:Fy|].
  - rewrite (value_fin x Fx), (value_fin y Fy). cbn [nmul]. unfold rnx.
    pose proof (Bmult_correct 24 128 eq_refl eq_refl binop_nan_pl32 mode_NE x y) as C.
    change (Bmult 24 128 eq_refl eq_refl binop_nan_pl32 mode_NE x y) with (b32_mult mode_NE x y) in C.
    change (SpecFloat.fexp 24 128) with (FLT_exp (-149) 24) in C. cbn [round_mode] in C.
    fold (val x) in C. fold (val y) in C.
    destruct (Rlt_bool (Rabs (rnd (val x * val y))) (bp 128)) eqn:B.
    + destruct C as (C1 & C2 & _). rewrite Fx, Fy in C2. rewrite (value_fin _ C2). f_equal. exact C1.
    + rewrite (value_inf _ _ C). f_equal. apply big_nz in B.
      destruct (Bsign 24 128 x) eqn:S, (Bsign 24 128 y) eqn:S2; cbn [xorb]; symmetry.
      * pose proof (sign_le0 x Fx S). pose proof (sign_le0 y Fy S2). apply Rlt_bool_false. nra.
      * pose proof (sign_le0 x Fx S). pose proof (sign_ge0 y Fy S2). apply Rlt_bool_true. nra.
      * pose proof (sign_ge0 x Fx S). pose proof (sign_le0 y Fy S2). apply Rlt_bool_true. nra.
      * pose proof (sign_ge0 x Fx S). pose proof (sign_ge0 y Fy S2). apply Rlt_bool_false. nra.
  - destruct x as [s|s|s p0 H0|s m e H0]; try discriminate Fx; destruct y as [t|t|t p1 H1|t m1 e1 H1]; try discriminate Fy; try reflexivity.
    + cbn. rewrite Req_bool_true; reflexivity.
    + destruct (NZ s m e H0) as [N1 N2]. cbn [value nmul]. rewrite N1, N2. cbn. f_equal. apply xorb_comm.
  - destruct x as [s|s|s p0 H0|s m e H0]; try discriminate Fx; destruct y as [t|t|t p1 H1|t m1 e1 H1]; try reflexivity.
    + cbn. rewrite Req_bool_true; reflexivity.
    + destruct (NZ t m1 e1 H1) as [N1 N2]. cbn [value nmul]. rewrite N1, N2. reflexivity.
Qed.
Lemma value_opp x : value (b32_opp x) = negated (value x).
Proof. destruct x as [s|s|s p0 H0|s m e H0]; cbn; try reflexivity; [rewrite Ropp_0; reflexivity|]. f_equal. rewrite <- F2R_Zopp. destruct s; reflexivity. Qed.
Lemma value_minus x y : value (b32_minus mode_NE x y) = nadd (value x) (negated (value y)).
Proof.
  destruct (is_finite 24 128 x) eqn:Fx; [destruct (is_finite 24 128 y) eqn:Fy|].
  - rewrite (value_fin x Fx), (value_fin y Fy). cbn [nadd negated]. unfold rnx.
    pose proof (Bminus_correct 24 128 eq_refl eq_refl binop_nan_pl32 mode_NE x y Fx Fy) as C.
    change (Bminus 24 128 eq_refl eq_refl binop_nan_pl32 mode_NE x y) with (b32_minus mode_NE x y) in C.
    change (SpecFloat.fexp 24 128) with (FLT_exp (-149) 24) in C. cbn [round_mode] in C.
    fold (val x) in C. fold (val y) in C. fold (val x - val y).
    destruct (Rlt_bool (Rabs (rnd (val x - val y))) (bp 128)) eqn:B.
    + destruct C as (C1 & C2 & _). rewrite (value_fin _ C2). f_equal. exact C1.
    + destruct C as (C1 & C2). rewrite (value_inf _ _ C1). f_equal. apply big_nz in B.
      destruct (Bsign 24 128 x) eqn:S.
      * pose proof (sign_le0 x Fx S). destruct (Bsign 24 128 y) eqn:S2; [discriminate C2|]. pose proof (sign_ge0 y Fy S2). symmetry. apply Rlt_bool_true. lra.
      * pose proof (sign_ge0 x Fx S). destruct (Bsign 24 128 y) eqn:S2; [|discriminate C2]. pose proof (sign_le0 y Fy S2). symmetry. apply Rlt_bool_false. lra.
  - destruct x as [s|s|s p0 H0|s m e H0]; try discriminate Fx; destruct y as [t|t|t p1 H1|t m1 e1 H1]; try discriminate Fy; try reflexivity.
  - destruct x as [s|s|s p0 H0|s m e H0]; try discriminate Fx; destruct y as [t|t|t p1 H1|t m1 e1 H1]; try reflexivity.
    destruct s, t; reflexivity.
Qed.
Lemma value_sqrt x : value (b32_sqrt mode_NE x) = nsqrt (value x).
Proof.
  pose proof (Bsqrt_correct 24 128 eq_refl eq_refl unop_nan_pl32 mode_NE x) as (C1 & C2 & _).
  change (Bsqrt 24 128 eq_refl eq_refl unop_nan_pl32 mode_NE x) with (b32_sqrt mode_NE x) in *.
  destruct x as [s|s|s p0 H0|s m e H0].
  - rewrite (value_fin _ C2). cbn [value nsqrt]. change (B2R 24 128 (B754_zero 24 128 s)) with 0 in *. rewrite Rlt_bool_false by lra. f_equal. exact C1.
  - destruct s; reflexivity.
  - reflexivity.
  - destruct s.
    + cbn [value nsqrt]. rewrite Rlt_bool_true; [reflexivity|]. cbn. apply F2R_lt_0. reflexivity.
    + rewrite (value_fin _ C2). cbn [value nsqrt]. rewrite Rlt_bool_false; [f_equal; exact C1|]. cbn. apply Rlt_le, F2R_gt_0. reflexivity.
Qed.

(** ** Laws of the numbers *)
Lemma rnd_opp z : rnd (- z) = - rnd z.
Proof. apply round_NE_opp. Qed.
Lemma rnx_opp z : rnx (- z) = negated (rnx z).
Proof.
  unfold rnx. rewrite rnd_opp, Rabs_Ropp. destruct (Rlt_bool (Rabs (rnd z)) (bp 128)) eqn:B; [reflexivity|]. apply big_nz in B.
  cbn [negated]. f_equal. destruct (Rlt_bool_spec z 0); [apply Rlt_bool_false; lra|apply Rlt_bool_true; lra].
Qed.
Lemma negated_invol a : negated (negated a) = a.
Proof. destruct a; cbn; [reflexivity|rewrite negb_involutive; reflexivity|rewrite Ropp_involutive; reflexivity]. Qed.
Lemma nadd_comm a b : nadd a b = nadd b a.
Proof. destruct a as [|s|x], b as [|t|y]; cbn; try reflexivity; [destruct s, t; reflexivity|]. rewrite Rplus_comm. reflexivity. Qed.
Lemma nadd_opp a b : nadd (negated a) (negated b) = negated (nadd a b).
Proof.
  destruct a as [|s|x], b as [|t|y]; cbn; try reflexivity; [destruct s, t; reflexivity|].
  rewrite <- rnx_opp. f_equal. ring.
Qed.
Lemma nmul_comm a b : nmul a b = nmul b a.
Proof. destruct a as [|s|x], b as [|t|y]; cbn; try reflexivity; [rewrite xorb_comm; reflexivity|]. rewrite Rmult_comm. reflexivity. Qed.
Lemma Req_bool_opp y : Req_bool (- y) 0 = Req_bool y 0.
Proof. destruct (Req_bool_spec y 0); [apply Req_bool_true|apply Req_bool_false]; lra. Qed.
Lemma nmul_opp_l a b : nmul (negated a) b = negated (nmul a b).
Proof.
  destruct a as [|s|x], b as [|t|y]; cbn; try reflexivity.
  - destruct s, t; reflexivity.
  - destruct (Req_bool y 0); [reflexivity|]. cbn. f_equal. destruct s, (Rlt_bool y 0); reflexivity.
  - rewrite Req_bool_opp. destruct (Req_bool_spec x 0); [reflexivity|]. cbn. f_equal.
    destruct (Rlt_bool_spec x 0); [rewrite Rlt_bool_false by lra|rewrite Rlt_bool_true by lra]; destruct t; reflexivity.
  - rewrite <- rnx_opp. f_equal. ring.
Qed.
Lemma nmul_opp_r a b : nmul a (negated b) = negated (nmul a b).
Proof. rewrite nmul_comm, nmul_opp_l, nmul_comm. reflexivity. Qed.
Lemma nmul_opp2 a b : nmul (negated a) (negated b) = nmul a b.
Proof. rewrite nmul_opp_l, nmul_opp_r. apply negated_invol. Qed.

(** Equal numbers with equal signs are the same float. *)
Lemma same_of_value x y : value x = value y -> (is_nan 24 128 x = false -> Bsign 24 128 x = Bsign 24 128 y) -> same x y.
Proof.
  intros E S.
  destruct (is_finite 24 128 x) eqn:Fx.
  - rewrite (value_fin x Fx) in E. symmetry in E. destruct (value_number _ _ E) as [Fy Ey]. left.
    apply B2R_Bsign_inj; [exact Fx|exact Fy|symmetry; exact Ey|]. apply S. destruct x; try discriminate Fx; reflexivity.
  - destruct x as [s|s|s p0 H0|s m e H0]; try discriminate Fx; destruct y as [t|t|t p1 H1|t m1 e1 H1]; try discriminate E.
    + left. injection E as ->. reflexivity.
    + right. split; reflexivity.
Qed.
Lemma sign_square x : is_nan 24 128 (b32_mult mode_NE x x) = false -> Bsign 24 128 (b32_mult mode_NE x x) = false.
Proof.
  intros N. rewrite <- (Bsign_B2BSN 24 128 _ N). rewrite bsn_mult. rewrite <- is_nan_B2BSN, bsn_mult in N.
  destruct (bsn x) as [s|s| |s m e H] eqn:E; try discriminate N; try (cbn; apply xorb_nilpotent).
  pose proof (BinarySingleNaN.Bmult_correct 24 128 prec53'' plt mode_NE (BinarySingleNaN.B754_finite s m e H) (BinarySingleNaN.B754_finite s m e H)) as C.
  match type of C with if ?b then _ else _ => destruct b end.
  - destruct C as (_ & _ & C). rewrite C; [apply xorb_nilpotent|exact N].
  - match type of C with BinarySingleNaN.B2SF ?t = _ => assert (BinarySingleNaN.Bsign t = match BinarySingleNaN.B2SF t with SpecFloat.S754_infinity s => s | SpecFloat.S754_zero s => s | SpecFloat.S754_finite s _ _ => s | _ => false end) as -> by (destruct t; reflexivity) end.
    rewrite C. cbn. apply xorb_nilpotent.
Qed.
Lemma same_square x y : value x = value y \/ value x = negated (value y) -> same (b32_mult mode_NE x x) (b32_mult mode_NE y y).
Proof.
  intros H.
  assert (E : value (b32_mult mode_NE x x) = value (b32_mult mode_NE y y)).
  { rewrite !value_mult. destruct H as [->| ->]; [reflexivity|apply nmul_opp2]. }
  apply same_of_value; [exact E|]. intros N. rewrite (sign_square x N). symmetry. apply sign_square.
  destruct (b32_mult mode_NE x x), (b32_mult mode_NE y y); try reflexivity; cbn in *; discriminate.
Qed.

(** ** Order *)
Lemma at_most_refl a : a <> NotANumber -> at_most a a.
Proof. destruct a as [|[|]|x]; cbn; intros; try exact I; [congruence|apply Rle_refl]. Qed.
Lemma at_most_trans a b c : at_most a b -> at_most b c -> at_most a c.
Proof. destruct a as [|[|]|x], b as [|[|]|y], c as [|[|]|z]; cbn; intros; try exact I; try contradiction; lra. Qed.
Lemma rnd_mono x y : x <= y -> rnd x <= rnd y.
Proof. apply round_le; [typeclasses eauto|apply valid_rnd_N]. Qed.
Lemma rnd_nonneg x : 0 <= x -> 0 <= rnd x.
Proof. intros H. rewrite <- rnd_0. apply rnd_mono. exact H. Qed.
Lemma rnx_mono x y : 0 <= x <= y -> at_most (rnx x) (rnx y).
Proof.
  intros [H0 H]. unfold rnx. pose proof (rnd_nonneg x H0). pose proof (rnd_mono x y H).
  rewrite !(Rlt_bool_false _ 0) by lra. rewrite !Rabs_pos_eq by lra.
  destruct (Rlt_bool_spec (rnd x) (bp 128)), (Rlt_bool_spec (rnd y) (bp 128)); cbn; try exact I; lra.
Qed.
Definition nonneg (a : number) : Prop := at_most (Number 0) a.
Lemma nonneg_inv a : nonneg a -> a = Infinity false \/ exists x, 0 <= x /\ a = Number x.
Proof. destruct a as [|[|]|x]; cbn; intros H; try contradiction; [left; reflexivity|right; exists x; split; [exact H|reflexivity]]. Qed.
Lemma rnx_nonneg x : 0 <= x -> nonneg (rnx x).
Proof.
  intros H. unfold nonneg, rnx. pose proof (rnd_nonneg x H). rewrite (Rlt_bool_false _ 0) by lra.
  destruct (Rlt_bool (Rabs (rnd x)) (bp 128)); cbn; [assumption|exact I].
Qed.
Lemma nadd_nonneg a b : nonneg a -> nonneg b -> nonneg (nadd a b).
Proof.
  intros Ha Hb. destruct (nonneg_inv a Ha) as [->|(x & Hx & ->)], (nonneg_inv b Hb) as [->|(y & Hy & ->)]; try exact I.
  apply rnx_nonneg. lra.
Qed.
Lemma nadd_mono a b a' b' : nonneg a -> nonneg b -> at_most a a' -> at_most b b' -> at_most (nadd a b) (nadd a' b').
Proof.
  intros Ha Hb H H'. pose proof (at_most_trans _ _ _ Ha H) as Ha'. pose proof (at_most_trans _ _ _ Hb H') as Hb'.
  destruct (nonneg_inv a Ha) as [->|(x & Hx & ->)], (nonneg_inv b Hb) as [->|(y & Hy & ->)],
    (nonneg_inv a' Ha') as [->|(x' & Hx' & ->)], (nonneg_inv b' Hb') as [->|(y' & Hy' & ->)]; cbn in H, H'; try contradiction; cbn [nadd]; try exact I;
    try (cbn; unfold rnx; destruct (Rlt_bool _ _); [exact I|]; rewrite (Rlt_bool_false _ 0) by lra; exact I).
  apply rnx_mono. lra.
Qed.
Lemma nsqrt_mono a b : nonneg a -> at_most a b -> at_most (nsqrt a) (nsqrt b) /\ nonneg (nsqrt a).
Proof.
  intros Ha H. pose proof (at_most_trans _ _ _ Ha H) as Hb.
  destruct (nonneg_inv a Ha) as [->|(x & Hx & ->)], (nonneg_inv b Hb) as [->|(y & Hy & ->)]; cbn in H; try contradiction; cbn [nsqrt];
    rewrite ?(Rlt_bool_false _ 0) by lra; (split; [|try exact I]); try exact I; cbn.
  - apply rnd_nonneg, sqrt_pos.
  - apply rnd_mono, sqrt_le_1_alt. exact H.
  - apply rnd_nonneg, sqrt_pos.
Qed.
Definition nabs (a : number) : number := match a with NotANumber => NotANumber | Infinity _ => Infinity false | Number x => Number (Rabs x) end.
Lemma value_abs x : value (b32_abs x) = nabs (value x).
Proof.
  destruct x as [s|s|s p0 H0|s m e H0]; cbn; try reflexivity; [rewrite Rabs_R0; reflexivity|]. f_equal.
  rewrite <- F2R_Zabs. destruct s; reflexivity.
Qed.
Lemma nmul_abs a : nmul (nabs a) (nabs a) = nmul a a.
Proof. destruct a as [|s|x]; cbn; try reflexivity; [rewrite xorb_nilpotent; reflexivity|]. f_equal. rewrite <- Rabs_mult. apply Rabs_pos_eq. nra. Qed.
Lemma nsq_nonneg a : a <> NotANumber -> nonneg (nmul a a).
Proof. destruct a as [|s|x]; intros H; [congruence| |]; cbn [nmul]; [rewrite xorb_nilpotent; exact I|]. apply rnx_nonneg. nra. Qed.
Lemma nsq_mono a b : at_most (nabs a) (nabs b) -> at_most (nmul a a) (nmul b b).
Proof.
  rewrite <- (nmul_abs a), <- (nmul_abs b). intros H.
  assert (Na : nonneg (nabs a)) by (destruct a as [|s|x]; cbn in *; try exact I; [contradiction|apply Rabs_pos]).
  pose proof (at_most_trans _ _ _ Na H) as Nb.
  destruct (nonneg_inv _ Na) as [E|(x & Hx & E)], (nonneg_inv _ Nb) as [E'|(y & Hy & E')]; rewrite E, E' in *; cbn [nmul] in *; try exact I; try contradiction.
  - cbn. unfold rnx. destruct (Rlt_bool _ _); [exact I|]. rewrite (Rlt_bool_false _ 0) by nra. exact I.
  - apply rnx_mono. cbn in H. nra.
Qed.
Lemma value_ssum n (f : nat -> f32) : value (ssum (H := F32Scalar) n f) = Nat.recursion (Number 0) (fun i a => nadd a (value (f i))) n.
Proof. induction n as [|n IH]; [reflexivity|]. cbn [ssum Nat.recursion]. cbn [sadd F32Scalar]. rewrite value_plus, IH. reflexivity. Qed.
Lemma ssum_opp n (f g : nat -> f32) : (forall i, (i < n)%nat -> value (g i) = negated (value (f i))) ->
  value (ssum (H := F32Scalar) n g) = negated (value (ssum (H := F32Scalar) n f)).
Proof.
  induction n as [|n IH]; intros H; [cbn; rewrite Ropp_0; reflexivity|]. cbn [ssum]. cbn [sadd F32Scalar].
  rewrite !value_plus, IH, H by (try lia; intros; apply H; lia). apply nadd_opp.
Qed.
Lemma ssum_mono n (f g : nat -> f32) : (forall i, (i < n)%nat -> nonneg (value (f i)) /\ at_most (value (f i)) (value (g i))) ->
  nonneg (value (ssum (H := F32Scalar) n f)) /\ at_most (value (ssum (H := F32Scalar) n f)) (value (ssum (H := F32Scalar) n g)).
Proof.
  induction n as [|n IH]; intros H; [cbn; split; apply Rle_refl|]. cbn [ssum]. cbn [sadd F32Scalar]. rewrite !value_plus.
  destruct IH as [I1 I2]; [intros; apply H; lia|]. destruct (H n ltac:(lia)) as [H1 H2].
  split; [apply nadd_nonneg; assumption|apply nadd_mono; assumption].
Qed.
(** The comparisons of floats decide the order of the numbers. *)
Lemma Bleb_at_most x y : Bleb32 x y = true <-> at_most (value x) (value y).
Proof.
  unfold Bleb32, b32_compare.
  destruct (is_finite 24 128 x) eqn:Fx; [destruct (is_finite 24 128 y) eqn:Fy|].
  - rewrite (Bcompare_correct 24 128 x y Fx Fy), (value_fin x Fx), (value_fin y Fy). cbn. fold (val x). fold (val y).
    destruct (Rcompare_spec (val x) (val y)); (split; [intros; try discriminate; lra|intros; try reflexivity; lra]).
  - destruct x as [s|s|s p0 H0|s m e H0]; try discriminate Fx; destruct y as [t|t|t p1 H1|t m1 e1 H1]; try discriminate Fy; destruct s; try destruct t; cbn;
      split; intros; try exact I; try contradiction; try discriminate; try reflexivity.
  - destruct x as [s|s|s p0 H0|s m e H0]; try discriminate Fx; destruct y as [t|t|t p1 H1|t m1 e1 H1]; destruct s; try destruct t; cbn;
      split; intros; try exact I; try contradiction; try discriminate; try reflexivity.
Qed.
