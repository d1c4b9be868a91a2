(** Property C201: adjust_near in double, over any history of calls. *)
From Coq Require Import ZArith Reals Lra Psatz List.
From Flocq Require Import Core.Core IEEE754.BinarySingleNaN IEEE754.Binary IEEE754.Bits.
From Verif Require Import InstF MFrustum MLit PFloat LFloat PFloat2 LErr LExt LRot LDist PDist PFrustumF PQuantF.
Import ListNotations.
Local Open Scope R_scope.
Local Open Scope list_scope.
Local Existing Instance F64Scalar.
Local Notation bp := (bpow radix2).
Local Notation "a *' b" := (b64_mult mode_NE a b) (at level 40, left associativity).
Local Notation "a /' b" := (b64_div mode_NE a b) (at level 40, left associativity).

(** ** Powers of 1 + u and 1 - u *)
Lemma pow_up (u : R) (n : nat) : 0 <= u -> INR n * u <= / 4 -> (1 + u) ^ n <= 1 + 4 / 3 * (INR n * u).
Proof.
  intros Hu. induction n as [|n IH]; intros H; [cbn; lra|]. rewrite S_INR in *. cbn [pow].
  assert (N0 : 0 <= INR n) by apply pos_INR. assert (Nu : 0 <= INR n * u) by (apply Rmult_le_pos; assumption).
  assert (IH' : (1 + u) ^ n <= 1 + 4 / 3 * (INR n * u)) by (apply IH; lra).
  apply (Rmult_le_compat_l (1 + u)) in IH'; [|lra].
  assert (u * (INR n * u) <= u * / 4) by (apply Rmult_le_compat_l; lra). lra.
Qed.
Lemma pow_dn (u : R) (n : nat) : 0 <= u <= 1 -> 1 - INR n * u <= (1 - u) ^ n.
Proof.
  intros Hu. induction n as [|n IH]; [cbn; lra|]. rewrite S_INR. cbn [pow].
  assert (N0 : 0 <= INR n) by apply pos_INR. apply (Rmult_le_compat_l (1 - u)) in IH; [|lra].
  assert (0 <= u * (INR n * u)) by (apply Rmult_le_pos; [lra|apply Rmult_le_pos; lra]). lra.
Qed.
(** A factor made of n roundings. *)
Definition within (n : nat) (F : R) : Prop := (1 - uro) ^ n <= F <= (1 + uro) ^ n.
Lemma within_S (n : nat) (F d : R) : within n F -> Rabs d <= uro -> within (S n) (F * (1 + d)).
Proof.
  intros (H1 & H2) Hd. apply abs_le_inv in Hd. pose proof us as U. assert (P0 : 0 <= (1 - uro) ^ n) by (apply pow_le; lra).
  unfold within. cbn [pow]. split; rewrite (Rmult_comm F); apply Rmult_le_compat; lra.
Qed.
Lemma within_mono (n : nat) (F : R) : within n F -> within (S n) F.
Proof. intros H. replace F with (F * (1 + 0)) by ring. apply within_S; [exact H|]. rewrite Rabs_R0. pose proof us. lra. Qed.
Lemma within_err (k : nat) (F : R) : within (2 * k) F -> INR k <= 2 ^ 50 -> Rabs (F - 1) <= 3 * INR k / 2 ^ 53 /\ / 2 <= F <= 2.
Proof.
  intros (H1 & H2) Hk. pose proof us as U. assert (N0 : 0 <= INR k) by apply pos_INR.
  assert (E : INR (2 * k) = 2 * INR k) by (rewrite mult_INR; reflexivity).
  assert (KU : INR (2 * k) * uro <= / 4).
  { rewrite E. unfold uro. apply Rle_trans with (2 * 2 ^ 50 * / 2 ^ 53); [apply Rmult_le_compat_r; [left; apply Rinv_0_lt_compat, pow_lt; lra|lra]|lra]. }
  pose proof (pow_up uro (2 * k) ltac:(lra) KU) as UP. pose proof (pow_dn uro (2 * k) ltac:(lra)) as DN.
  assert (KN : 0 <= INR k * uro) by (apply Rmult_le_pos; lra).
  rewrite E in *. change (3 * INR k / 2 ^ 53) with (3 * INR k * uro). split; [apply Rabs_le|]; lra.
Qed.

(** ** One call *)
Definition near_ok (n : f64) : Prop := fin n /\ / 2 ^ 200 <= val n <= 2 ^ 200.
Definition edge_ok (e : f64) : Prop := fin e /\ (val e = 0 \/ / 2 ^ 400 <= Rabs (val e) <= 2 ^ 400).
Lemma bpn (n : nat) : bp (Z.of_nat n) = 2 ^ n. Proof. rewrite (bpow_powerRZ radix2), <- pow_powerRZ. reflexivity. Qed.
Lemma bpm (n : nat) : bp (- Z.of_nat n) = / 2 ^ n. Proof. rewrite bpow_opp, bpn. reflexivity. Qed.
Lemma b200 : bp 200 = 2 ^ 200 /\ bp (-200) = / 2 ^ 200. Proof. exact (conj (bpn 200) (bpm 200)). Qed.
Lemma b400 : bp 400 = 2 ^ 400 /\ bp (-400) = / 2 ^ 400. Proof. exact (conj (bpn 400) (bpm 400)). Qed.
Lemma quot_range (a b : R) : bp (-200) <= a <= bp 200 -> bp (-200) <= b <= bp 200 -> bp (-400) <= a / b <= bp 400.
Proof.
  intros Ha Hb. pose proof (bpow_gt_0 radix2 (-200)) as G. unfold Rdiv.
  assert (I1 : bp (-200) <= / b <= bp 200).
  { split; [change (-200)%Z with (Z.opp 200) at 1|change 200%Z with (Z.opp (-200))]; rewrite bpow_opp; apply Rinv_le_contravar; lra. }
  split; [change (-400)%Z with (-200 + -200)%Z|change 400%Z with (200 + 200)%Z]; rewrite bpow_plus; apply Rmult_le_compat; lra.
Qed.
Lemma ratio_E (n n' : f64) : near_ok n -> near_ok n' -> okf 400 (n' /' n) /\ exists d, Rabs d <= uro /\ val (n' /' n) = val n' / val n * (1 + d).
Proof.
  intros (Fn & Bn) (Fn' & Bn'). destruct b200 as (B1 & B2). rewrite <- B2, <- B1 in Bn, Bn'.
  pose proof (quot_range _ _ Bn' Bn) as Q. pose proof (bpow_gt_0 radix2 (-200)) as G. pose proof (bpow_gt_0 radix2 (-400)) as G4.
  assert (QA : Rabs (val n' / val n) = val n' / val n) by (apply Rabs_pos_eq; lra).
  destruct (div_E n' n 400 Fn' ltac:(lra) ltac:(rewrite QA; lra) ltac:(lia)) as (K & V & _). split; [exact K|].
  destruct (rnd_rel (val n' / val n)) as (d & Hd & E). { rewrite QA. apply Rle_trans with (bp (-400)); [apply bpow_le; lia|lra]. }
  exists d. split; [exact Hd|]. rewrite V, E. reflexivity.
Qed.
(** The invariant of an edge: e is e0 n / n0 up to 2 k roundings. *)
Definition inv (e0 n0 n : R) (k : nat) (e : f64) : Prop :=
  fin e /\ exists F, within (2 * k) F /\ val e = e0 * (n / n0) * F.
Lemma inv_range (e0 n0 n : R) (k : nat) (e : f64) : INR k <= 2 ^ 50 -> / 2 ^ 400 <= Rabs e0 <= 2 ^ 400 -> / 2 ^ 200 <= n0 <= 2 ^ 200 -> / 2 ^ 200 <= n <= 2 ^ 200 ->
  inv e0 n0 n k e -> bp (-801) <= Rabs (val e) <= bp 801.
Proof.
  intros Hk He Hn0 Hn (_ & F & W & ->). destruct b200 as (B1 & B2), b400 as (B3 & B4). rewrite <- B2, <- B1 in Hn0, Hn. rewrite <- B4, <- B3 in He.
  pose proof (quot_range _ _ Hn Hn0) as Q. destruct (within_err k F W Hk) as (_ & FB). pose proof (bpow_gt_0 radix2 (-400)) as G4.
  rewrite !Rabs_mult, (Rabs_pos_eq (n / n0)), (Rabs_pos_eq F) by lra.
  split; [change (-801)%Z with (-400 + -400 + -1)%Z|change 801%Z with (400 + 400 + 1)%Z]; rewrite !bpow_plus; [change (bp (-1)) with (/ 2)|change (bp 1) with 2];
    (apply Rmult_le_compat; [apply Rmult_le_pos; try apply bpow_ge_0; try apply Rabs_pos; lra|lra|apply Rmult_le_compat; try apply bpow_ge_0; try apply Rabs_pos; lra|lra]).
Qed.
Lemma inv_step (e0 n0 : R) (n n' : f64) (k : nat) (e : f64) : INR (S k) <= 2 ^ 50 -> (e0 = 0 \/ / 2 ^ 400 <= Rabs e0 <= 2 ^ 400) -> / 2 ^ 200 <= n0 <= 2 ^ 200 ->
  near_ok n -> near_ok n' -> inv e0 n0 (val n) k e -> inv e0 n0 (val n') (S k) (e *' (n' /' n)).
Proof.
  intros Hk He Hn0 Hn Hn' HI. destruct (ratio_E n n' Hn Hn') as (Kr & d1 & Hd1 & Vr).
  assert (Hk' : INR k <= 2 ^ 50) by (rewrite S_INR in Hk; lra).
  assert (P0 : 0 < n0) by (destruct b200 as (_ & B2); rewrite <- B2 in Hn0; pose proof (bpow_gt_0 radix2 (-200)); lra).
  assert (P1 : 0 < val n) by (destruct Hn as (_ & Bn), b200 as (_ & B2); rewrite <- B2 in Bn; pose proof (bpow_gt_0 radix2 (-200)); lra).
  assert (NF : (2 * S k = S (S (2 * k)))%nat) by lia.
  destruct He as [->|He].
  - destruct HI as (Fe & F & W & Ve). rewrite !Rmult_0_l in Ve.
    assert (Ke : okf 0 e) by (split; [exact Fe|rewrite Ve, Rabs_R0; apply bpow_ge_0]).
    destruct (mult_E 0 400 e (n' /' n) Ke Kr ltac:(lia)) as (Kp & Vp & _). split; [apply Kp|]. exists F. split; [rewrite NF; apply within_mono, within_mono, W|].
    rewrite Vp, Ve, !Rmult_0_l. apply round_0, valid_rnd_N.
  - pose proof (inv_range e0 n0 (val n) k e Hk' He Hn0 (proj2 Hn) HI) as R.
    destruct HI as (Fe & F & W & Ve).
    assert (Ke : okf 801 e) by (split; [exact Fe|lra]).
    (* the exact product is in the range of normal numbers *)
    assert (FB : within (S (2 * k)) (F * (1 + d1))) by (apply within_S; assumption).
    assert (EP : val e * val (n' /' n) = e0 * (val n' / n0) * (F * (1 + d1))) by (rewrite Ve, Vr; field; lra).
    assert (LB : bp (-801) <= Rabs (val e * val (n' /' n)) <= bp 801).
    { rewrite EP. destruct (within_err (S k) (F * (1 + d1)) ltac:(rewrite NF; apply within_mono, FB) Hk) as (_ & FB2).
      destruct b200 as (B1 & B2), b400 as (B3 & B4). destruct Hn' as (_ & Bn'). rewrite <- B2, <- B1 in Hn0, Bn'. rewrite <- B4, <- B3 in He.
      pose proof (quot_range _ _ Bn' Hn0) as Q. pose proof (bpow_gt_0 radix2 (-400)) as G4.
      rewrite !Rabs_mult, (Rabs_pos_eq (val n' / n0)) by lra. rewrite <- Rabs_mult, (Rabs_pos_eq (F * (1 + d1))) by lra.
      split; [change (-801)%Z with (-400 + -400 + -1)%Z|change 801%Z with (400 + 400 + 1)%Z]; rewrite !bpow_plus; [change (bp (-1)) with (/ 2)|change (bp 1) with 2];
      (apply Rmult_le_compat; [apply Rmult_le_pos; try apply bpow_ge_0; try apply Rabs_pos; lra|lra|apply Rmult_le_compat; try apply bpow_ge_0; try apply Rabs_pos; lra|lra]). }
    destruct (mult_fin e (n' /' n) Fe (proj1 Kr)) as (Fp & Vp). { eapply Rle_lt_trans; [apply (rnd_le _ 801); [lia|apply LB]|apply bpow_lt; lia]. }
    destruct (rnd_rel (val e * val (n' /' n))) as (d2 & Hd2 & E2). { apply Rle_trans with (bp (-801)); [apply bpow_le; lia|apply LB]. }
    split; [exact Fp|]. exists (F * (1 + d1) * (1 + d2)). split; [rewrite NF; apply within_S; assumption|]. rewrite Vp, E2, EP. ring.
Qed.

(** ** The history *)
Fixpoint adjust_history (fr : list f64) (l : list f64) : res (list f64) :=
  match l with [] => Ok fr | n :: l => fr <- fr_adjust_near fr n ;; adjust_history fr l end.
Lemma Beqb_fin (a b : f64) : fin a -> fin b -> (Beqb a b = true <-> val a = val b).
Proof.
  unfold fin, val. intros Fa Fb. unfold Beqb, b64_compare. rewrite (Bcompare_correct 53 1024 a b Fa Fb).
  destruct (Rcompare_spec (B2R 53 1024 a) (B2R 53 1024 b)); split; intros; try discriminate; try reflexivity; lra.
Qed.
Lemma inv_same (e0 n0 n n' : R) (k : nat) (e : f64) : n' = n -> inv e0 n0 n k e -> inv e0 n0 n' (S k) e.
Proof.
  intros -> (F & G & W & V). split; [exact F|]. exists G. split; [|exact V]. replace (2 * S k)%nat with (S (S (2 * k))) by lia. apply within_mono, within_mono, W.
Qed.
Lemma history_inv (e0 : nat -> R) (n0 : R) (f : f64) (Hn0 : / 2 ^ 200 <= n0 <= 2 ^ 200)
  (He : forall i, (i < 4)%nat -> e0 i = 0 \/ / 2 ^ 400 <= Rabs (e0 i) <= 2 ^ 400) :
  forall (h : list f64) (k : nat) (l r b t n : f64), INR (k + length h) <= 2 ^ 50 -> near_ok n -> Forall near_ok h ->
  inv (e0 0%nat) n0 (val n) k l -> inv (e0 1%nat) n0 (val n) k r -> inv (e0 2%nat) n0 (val n) k b -> inv (e0 3%nat) n0 (val n) k t ->
  exists l' r' b' t' n', adjust_history [l; r; b; t; n; f] h = Ok [l'; r'; b'; t'; n'; f] /\ near_ok n' /\ val n' = val (last h n) /\
  inv (e0 0%nat) n0 (val n') (k + length h) l' /\ inv (e0 1%nat) n0 (val n') (k + length h) r' /\
  inv (e0 2%nat) n0 (val n') (k + length h) b' /\ inv (e0 3%nat) n0 (val n') (k + length h) t'.
Proof.
  induction h as [|x h IH]; intros k l r b t n Hk Hn Hh Il Ir Ib It.
  - exists l, r, b, t, n. cbn [length]. rewrite Nat.add_0_r. split; [reflexivity|]. split; [exact Hn|]. split; [reflexivity|]. auto.
  - inversion Hh as [|? ? Hx Hh']; subst. cbn [length] in Hk |- *. replace (k + S (length h))%nat with (S k + length h)%nat in * by lia.
    assert (HS : INR (S k) <= 2 ^ 50) by (eapply Rle_trans; [apply le_INR|exact Hk]; lia).
    assert (LAST : forall y : f64, val y = val x -> val (last (x :: h) n) = val (last h y)).
    { intros y Ey. destruct h as [|z h]; [cbn; symmetry; exact Ey|]. change (val (last (z :: h) n) = val (last (z :: h) y)). clear. revert z. induction h as [|w h IH]; intros z; [reflexivity|]. cbn [last]. apply (IH w). }
    cbn [adjust_history]. unfold fr_adjust_near, fr_near, fr_right, fr_left, fr_top, fr_bottom. cbn [rd nth_error bind wr upd seqb F64Scalar].
    destruct (Beqb x n) eqn:E.
    + apply (Beqb_fin x n (proj1 Hx) (proj1 Hn)) in E. cbn [bind].
      destruct (IH (S k) l r b t n Hk Hn Hh' (inv_same _ _ _ _ k l eq_refl Il) (inv_same _ _ _ _ k r eq_refl Ir) (inv_same _ _ _ _ k b eq_refl Ib) (inv_same _ _ _ _ k t eq_refl It)) as (l' & r' & b' & t' & n' & R & O & V & I').
      exists l', r', b', t', n'. split; [exact R|]. split; [exact O|]. split; [|exact I']. rewrite V. symmetry. apply LAST. symmetry. exact E.
    + cbn -[b64_mult b64_div adjust_history].
      destruct (IH (S k) (l *' (x /' n)) (r *' (x /' n)) (b *' (x /' n)) (t *' (x /' n)) x Hk Hx Hh'
        (inv_step (e0 0%nat) n0 n x k l HS (He 0%nat ltac:(lia)) Hn0 Hn Hx Il) (inv_step (e0 1%nat) n0 n x k r HS (He 1%nat ltac:(lia)) Hn0 Hn Hx Ir)
        (inv_step (e0 2%nat) n0 n x k b HS (He 2%nat ltac:(lia)) Hn0 Hn Hx Ib) (inv_step (e0 3%nat) n0 n x k t HS (He 3%nat ltac:(lia)) Hn0 Hn Hx It)) as (l' & r' & b' & t' & n' & R & O & V & I').
      exists l', r', b', t', n'. split; [exact R|]. split; [exact O|]. split; [|exact I']. rewrite V. symmetry. apply LAST. reflexivity.
Qed.
(** C201: after any history of k calls the window is the first window scaled by
    near / first near, up to 3 k u relative; near and far are exact. *)
Definition scaled_to (e e' : f64) (ratio : R) (k : nat) : Prop :=
  fin e' /\ Rabs (val e' - val e * ratio) <= 3 * INR k / 2 ^ 53 * Rabs (val e * ratio).
Theorem C201_adjust_near_history (l r b t n f : f64) (h : list f64) :
  near_ok n -> Forall near_ok h -> edge_ok l -> edge_ok r -> edge_ok b -> edge_ok t -> INR (length h) <= 2 ^ 50 ->
  exists l' r' b' t' n', adjust_history [l; r; b; t; n; f] h = Ok [l'; r'; b'; t'; n'; f] /\
  fin n' /\ val n' = val (last h n) /\
  let ratio := val n' / val n in let k := length h in
  scaled_to l l' ratio k /\ scaled_to r r' ratio k /\ scaled_to b b' ratio k /\ scaled_to t t' ratio k.
Proof.
  intros Hn Hh Hl Hr Hb Ht Hk. pose proof Hn as (Fn & Bn).
  assert (P : 0 < val n) by (destruct b200 as (_ & B2); rewrite <- B2 in Bn; pose proof (bpow_gt_0 radix2 (-200)); lra).
  set (e0 := fun i => match i with 0%nat => val l | 1%nat => val r | 2%nat => val b | _ => val t end).
  assert (I0 : forall e : f64, edge_ok e -> inv (val e) (val n) (val n) 0 e).
  { intros e (Fe & _). split; [exact Fe|]. exists 1. split; [split; cbn; lra|]. field. lra. }
  destruct (history_inv e0 (val n) f Bn) with (h := h) (k := 0%nat) (l := l) (r := r) (b := b) (t := t) (n := n) as (l' & r' & b' & t' & n' & R & O & V & I1 & I2 & I3 & I4); try assumption.
  - intros [|[|[|i]]] _; cbn [e0]; [apply Hl|apply Hr|apply Hb|apply Ht].
  - apply I0, Hl.
  - apply I0, Hr.
  - apply I0, Hb.
  - apply I0, Ht.
  - exists l', r', b', t', n'. split; [exact R|]. split; [apply O|]. split; [exact V|]. cbv zeta.
    assert (D : forall (e : f64) (e' : f64), inv (val e) (val n) (val n') (length h) e' -> scaled_to e e' (val n' / val n) (length h)).
    { intros e e' (Fe & F & W & Ve). split; [exact Fe|]. destruct (within_err _ F W Hk) as (B & _). rewrite Ve.
      replace (val e * (val n' / val n) * F - val e * (val n' / val n)) with ((F - 1) * (val e * (val n' / val n))) by ring.
      rewrite Rabs_mult. apply Rmult_le_compat_r; [apply Rabs_pos|exact B]. }
    cbn [Nat.add e0] in *. auto.
Qed.
Print Assumptions C201_adjust_near_history.
(** C201: asking for the near plane the frustum has changes no bit. *)
Theorem C201_same_near (l r b t n f n' : f64) : fin n -> fin n' -> val n' = val n -> fr_adjust_near [l; r; b; t; n; f] n' = Ok [l; r; b; t; n; f].
Proof.
  intros Fn Fn' E. unfold fr_adjust_near, fr_near. cbn [rd nth_error bind seqb F64Scalar]. rewrite (proj2 (Beqb_fin n' n Fn' Fn) E). reflexivity.
Qed.
Print Assumptions C201_same_near.
(** The hypotheses hold for the window [-1, 1] x [-1, 1] at near 1, moved to 2, to
    1/2 and back. *)
Example C201_hypotheses_met : near_ok f64_one /\ Forall near_ok [f64_two; f64_half; f64_one] /\ edge_ok (b64_opp f64_one) /\ edge_ok f64_one /\ edge_ok f64_zero /\
  match adjust_history [b64_opp f64_one; f64_one; b64_opp f64_one; f64_zero; f64_one; f64_two] [f64_two; f64_half] with
  | Ok r => map bits_of_b64 r = map bits_of_b64 [b64_opp f64_half; f64_half; b64_opp f64_half; f64_zero; f64_half; f64_two] | _ => False end.
Proof.
  assert (V1 : val (b64_opp f64_one) = -1) by (unfold val, b64_opp; rewrite B2R_Bopp; fold (val f64_one); rewrite val_one; reflexivity).
  assert (G1 : 2 <= 2 ^ 200) by (rewrite <- (pow_1 2) at 1; apply Rle_pow; [lra|lia]).
  assert (G2 : / 2 ^ 200 <= / 2) by (apply Rinv_le_contravar; lra).
  assert (G3 : 2 <= 2 ^ 400) by (rewrite <- (pow_1 2) at 1; apply Rle_pow; [lra|lia]).
  assert (G4 : / 2 ^ 400 <= / 2) by (apply Rinv_le_contravar; lra).
  split; [split; [reflexivity|rewrite val_one; lra]|].
  split; [repeat constructor; rewrite ?val_one, ?val_two, ?val_half; lra|].
  split; [split; [reflexivity|right; rewrite V1, Rabs_left; lra]|]. split; [split; [reflexivity|right; rewrite val_one, Rabs_R1; lra]|].
  split; [split; [reflexivity|left; reflexivity]|]. vm_compute. reflexivity.
Qed.
