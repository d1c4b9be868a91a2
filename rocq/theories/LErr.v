(** A small calculus of rounding errors for straight-line double code whose
    operands are bounded by powers of two. *)
From Coq Require Import ZArith Reals Lra Psatz.
From Flocq Require Import Core.Core IEEE754.BinarySingleNaN IEEE754.Binary IEEE754.Bits.
From Verif Require Import InstF PFloat LFloat PFloat2.
Local Open Scope R_scope.
Local Notation rnd := (round radix2 (FLT_exp (-1074) 53) (Znearest (fun x => negb (Z.even x)))).
Local Notation bp := (bpow radix2).

(** Finite and at most 2^i. *)
Definition okf (i : Z) (x : f64) : Prop := fin x /\ Rabs (val x) <= bp i.

Lemma okf_le i j x : okf i x -> (i <= j)%Z -> okf j x.
Proof. intros (F & B) H. split; [exact F|]. eapply Rle_trans; [exact B|]. apply bpow_le, H. Qed.
Lemma okf_opp i x : okf i x -> okf i (b64_opp x) /\ val (b64_opp x) = - val x.
Proof.
  intros (F & B). assert (E : val (b64_opp x) = - val x) by (unfold val, b64_opp; apply B2R_Bopp). split; [|exact E]. split.
  - unfold fin, b64_opp in *. rewrite is_finite_Bopp. exact F.
  - rewrite E, Rabs_Ropp. exact B.
Qed.
Lemma okf_abs i x : okf i x -> okf i (b64_abs x) /\ val (b64_abs x) = Rabs (val x).
Proof.
  intros (F & B). assert (E : val (b64_abs x) = Rabs (val x)) by (unfold val, b64_abs; apply B2R_Babs). split; [|exact E]. split.
  - unfold fin, b64_abs in *. rewrite is_finite_Babs. exact F.
  - rewrite E, Rabs_Rabsolu. exact B.
Qed.
Lemma okf_mult i j k a b : okf i a -> okf j b -> (k = i + j)%Z -> (-1074 <= k < 1024)%Z ->
  okf k (b64_mult mode_NE a b) /\ Rabs (val (b64_mult mode_NE a b) - val a * val b) <= uro * Rabs (val a * val b) + eta.
Proof.
  intros (Fa & Ba) (Fb & Bb) -> Hk.
  assert (P : Rabs (val a * val b) <= bp (i + j)).
  { rewrite bpow_plus, Rabs_mult. apply Rmult_le_compat; try apply Rabs_pos; assumption. }
  pose proof (rnd_le _ _ (proj1 Hk) P) as RB.
  destruct (mult_fin a b Fa Fb) as (F & E). { eapply Rle_lt_trans; [exact RB|]. apply bpow_lt. lia. }
  split; [split; [exact F|rewrite E; exact RB]|]. rewrite E.
  destruct (mult_error (val a) (val b)) as (d & e & Hd & He & ->).
  replace (val a * val b * (1 + d) + e - val a * val b) with (d * (val a * val b) + e) by ring.
  eapply Rle_trans; [apply Rabs_triang|]. rewrite (Rabs_mult d). apply Rplus_le_compat; [|exact He].
  apply Rmult_le_compat_r; [apply Rabs_pos|exact Hd].
Qed.
Lemma okf_plus i k a b : okf i a -> okf i b -> (k = i + 1)%Z -> (-1074 <= k < 1024)%Z ->
  okf k (b64_plus mode_NE a b) /\ Rabs (val (b64_plus mode_NE a b) - (val a + val b)) <= uro * Rabs (val a + val b).
Proof.
  intros (Fa & Ba) (Fb & Bb) -> Hk.
  assert (P : Rabs (val a + val b) <= bp (i + 1)).
  { eapply Rle_trans; [apply Rabs_triang|]. rewrite bpow_plus. change (bp 1) with 2. lra. }
  pose proof (rnd_le _ _ (proj1 Hk) P) as RB.
  destruct (plus_fin a b Fa Fb) as (F & E). { eapply Rle_lt_trans; [exact RB|]. apply bpow_lt. lia. }
  split; [split; [exact F|rewrite E; exact RB]|]. rewrite E.
  destruct (plus_error a b) as (d & Hd & ->).
  replace ((val a + val b) * (1 + d) - (val a + val b)) with (d * (val a + val b)) by ring.
  rewrite Rabs_mult. apply Rmult_le_compat_r; [apply Rabs_pos|exact Hd].
Qed.
Lemma minus_fin a b : fin a -> fin b -> Rabs (rnd (val a - val b)) < bp 1024 ->
  fin (b64_minus mode_NE a b) /\ val (b64_minus mode_NE a b) = rnd (val a - val b).
Proof.
  unfold fin, val, b64_minus. intros Fa Fb H.
  match goal with |- context [Bminus _ _ ?p ?q ?n _ _ _] => pose proof (Bminus_correct 53 1024 p q n mode_NE a b Fa Fb) as C end. cbv zeta in C.
  rewrite Rlt_bool_true in C by exact H. destruct C as (C1 & C2 & _). split; [exact C2|exact C1].
Qed.
Lemma okf_minus i k a b : okf i a -> okf i b -> (k = i + 1)%Z -> (-1074 <= k < 1024)%Z ->
  okf k (b64_minus mode_NE a b) /\ Rabs (val (b64_minus mode_NE a b) - (val a - val b)) <= uro * Rabs (val a - val b).
Proof.
  intros (Fa & Ba) (Fb & Bb) -> Hk.
  assert (P : Rabs (val a - val b) <= bp (i + 1)).
  { unfold Rminus. eapply Rle_trans; [apply Rabs_triang|]. rewrite Rabs_Ropp, bpow_plus. change (bp 1) with 2. lra. }
  pose proof (rnd_le _ _ (proj1 Hk) P) as RB.
  destruct (minus_fin a b Fa Fb) as (F & E). { eapply Rle_lt_trans; [exact RB|]. apply bpow_lt. lia. }
  split; [split; [exact F|rewrite E; exact RB]|]. rewrite E.
  destruct (okf_opp i b (conj Fb Bb)) as (_ & EO).
  destruct (plus_error a (b64_opp b)) as (d & Hd & Ed). rewrite EO in Ed. change (val a + - val b) with (val a - val b) in Ed. rewrite Ed.
  replace ((val a - val b) * (1 + d) - (val a - val b)) with (d * (val a - val b)) by ring.
  rewrite Rabs_mult. apply Rmult_le_compat_r; [apply Rabs_pos|exact Hd].
Qed.
Lemma val_half : val f64_half = / 2.
Proof.
  assert (E : B2FF 53 1024 f64_half = F754_finite false 4503599627370496 (-53)) by reflexivity.
  unfold val. destruct f64_half as [s|s|s p0 H0|s m e H]; try discriminate E. injection E as -> -> ->. cbn. unfold F2R. cbn. lra.
Qed.
Lemma okf_const (x : f64) (r : R) (i : Z) : is_finite 53 1024 x = true -> val x = r -> Rabs r <= bp i -> okf i x.
Proof. intros F <- B. split; assumption. Qed.

(** Comparisons of finite doubles. *)
Lemma Bleb_fin a b : fin a -> fin b -> (Bleb a b = true <-> val a <= val b).
Proof.
  unfold fin, val. intros Fa Fb. unfold Bleb, b64_compare. rewrite (Bcompare_correct 53 1024 a b Fa Fb).
  destruct (Rcompare_spec (B2R 53 1024 a) (B2R 53 1024 b)); split; intros; try discriminate; try reflexivity; lra.
Qed.
Lemma Bltb_fin a b : fin a -> fin b -> (Bltb a b = true <-> val a < val b).
Proof.
  unfold fin, val. intros Fa Fb. unfold Bltb, b64_compare. rewrite (Bcompare_correct 53 1024 a b Fa Fb).
  destruct (Rcompare_spec (B2R 53 1024 a) (B2R 53 1024 b)); split; intros; try discriminate; try reflexivity; lra.
Qed.
Lemma Bleb_fin_false a b : fin a -> fin b -> (Bleb a b = false <-> val b < val a).
Proof. intros Fa Fb. pose proof (Bleb_fin a b Fa Fb) as H. destruct (Bleb a b); split; intros; try discriminate; try reflexivity; [exfalso; apply proj1 in H; specialize (H eq_refl); lra|]. destruct (Rle_lt_dec (val a) (val b)) as [L|L]; [apply H in L; discriminate|exact L]. Qed.
Lemma Bltb_fin_false a b : fin a -> fin b -> (Bltb a b = false <-> val b <= val a).
Proof. intros Fa Fb. pose proof (Bltb_fin a b Fa Fb) as H. destruct (Bltb a b); split; intros; try discriminate; try reflexivity; [exfalso; apply proj1 in H; specialize (H eq_refl); lra|]. destruct (Rlt_le_dec (val a) (val b)) as [L|L]; [apply H in L; discriminate|exact L]. Qed.

(** Turns every bound |x| <= y into two inequalities and every Rabs x into a
    variable. *)
Lemma Rabs_fact x : - Rabs x <= x <= Rabs x.
Proof. pose proof (Rle_abs x). pose proof (Rle_abs (- x)) as G. rewrite Rabs_Ropp in G. lra. Qed.
