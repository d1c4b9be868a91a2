(** Facts about the binary64 comparisons. *)
From Coq Require Import ZArith Reals Lra.
From Flocq Require Import Core.Core IEEE754.BinarySingleNaN IEEE754.Binary IEEE754.Bits.
From Verif Require Import InstF LVector2.

Definition not_nan (x : f64) : Prop := is_nan 53 1024 x = false.

(** A key in an ordered set for every non-NaN double: infinities outside. *)
Inductive key := KNeg | KFin (r : R) | KPos.
Definition key_of (x : f64) : key :=
  match x with
  | B754_infinity _ _ true => KNeg
  | B754_infinity _ _ false => KPos
  | _ => KFin (B2R 53 1024 x)
  end.
Definition key_lt (a b : key) : Prop :=
  match a, b with
  | KNeg, KNeg => False
  | KNeg, _ => True
  | KFin x, KFin y => (x < y)%R
  | KFin _, KPos => True
  | _, _ => False
  end.

Lemma Bltb_key x y : not_nan x -> not_nan y -> (Bltb x y = true <-> key_lt (key_of x) (key_of y)).
Proof.
  intros Hx Hy. unfold Bltb, b64_compare.
  destruct (is_finite 53 1024 x) eqn:Fx; destruct (is_finite 53 1024 y) eqn:Fy.
  - rewrite (Bcompare_correct 53 1024) by assumption.
    assert (Ex : key_of x = KFin (B2R 53 1024 x)) by (destruct x; try discriminate; reflexivity).
    assert (Ey : key_of y = KFin (B2R 53 1024 y)) by (destruct y; try discriminate; reflexivity).
    rewrite Ex, Ey. cbn [key_lt].
    destruct (Rcompare_spec (B2R 53 1024 x) (B2R 53 1024 y)); split; intros; try easy; lra.
  - destruct y as [s|s|s pl e|s m e B]; try discriminate.
    destruct x as [s'|s'|s' pl e|s' m e B]; try discriminate; destruct s; cbn; split; easy.
  - destruct x as [s|s|s pl e|s m e B]; try discriminate.
    destruct y as [s'|s'|s' pl e|s' m e B]; try discriminate; destruct s; cbn; split; easy.
  - destruct x as [s|s|s pl e|s m e B]; try discriminate.
    destruct y as [s'|s'|s' pl e'|s' m e' B]; try discriminate; destruct s, s'; cbn; split; easy.
Qed.

Lemma f64_strict_weak : strict_weak not_nan Bltb.
Proof.
  constructor.
  - intros a Ga. destruct (Bltb a a) eqn:E; auto. apply Bltb_key in E; auto.
    destruct (key_of a); cbn in E; try lra; easy.
  - intros a b c Ga Gb Gc H1 H2. apply Bltb_key in H1; auto. apply Bltb_key in H2; auto.
    apply Bltb_key; auto. destruct (key_of a), (key_of b), (key_of c); cbn in *; try easy; lra.
  - intros a b c Ga Gb Gc H. apply Bltb_key in H; auto.
    rewrite (Bltb_key a b), (Bltb_key b c) by auto.
    destruct (key_of a), (key_of b), (key_of c); cbn in *; try tauto; try easy.
    destruct (Rlt_or_le r r0); [left; auto|right; lra].
Qed.

Lemma bits_inj (x y : f64) : bits_of_b64 x = bits_of_b64 y -> x = y.
Proof.
  intros E. unfold bits_of_b64 in E.
  rewrite <- (binary_float_of_bits_of_binary_float 52 11 eq_refl eq_refl eq_refl x).
  rewrite E. apply (binary_float_of_bits_of_binary_float 52 11 eq_refl eq_refl eq_refl y).
Qed.

Lemma Bltb_asym x y : Bltb x y = true -> Bltb y x = false.
Proof.
  intros H. destruct (is_nan 53 1024 x) eqn:Nx.
  - destruct x; try discriminate. 
  - destruct (is_nan 53 1024 y) eqn:Ny.
    + destruct y; try discriminate. unfold Bltb, b64_compare in H.
      destruct x; cbn in H; discriminate.
    + apply (sw_asym not_nan Bltb f64_strict_weak); auto.
Qed.
