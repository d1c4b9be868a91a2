(** Properties C195, C196: distance_to_plane, project_point_onto_plane,
    distance_to_sphere and project_point_onto_sphere in float. *)
From Coq Require Import ZArith Reals Lra Psatz List.
From Flocq Require Import Core.Core IEEE754.BinarySingleNaN IEEE754.Binary IEEE754.Bits.
From Verif Require Import InstF InstF32 MVector MFloat LVector LMatrix LVector2 Spec LSum LVectorR LVecProps2 PF32 LF32 PF32b LExprF PCullF Spec10f LExt32 PF32c PF32d PFrustumF32 PAabb PRayF32 PViewF32 LNormal PNormal32 LRot LDist MDistF.
Import ListNotations.
Local Open Scope R_scope.
Local Open Scope list_scope.
Local Existing Instance F32Scalar.
Local Notation bp := (bpow radix2).
Local Notation "a *' b" := (b32_mult mode_NE a b) (at level 40, left associativity).
Local Notation "a +' b" := (b32_plus mode_NE a b) (at level 50, left associativity).
Local Notation "a -' b" := (b32_minus mode_NE a b) (at level 50, left associativity).

Lemma us : 0 < uro <= / 1000000. Proof. rewrite uro_val. lra. Qed.
Lemma es : 0 <= eta <= uro / 1000. Proof. pose proof eta_small. pose proof us. pose proof eta_pos. lra. Qed.
Lemma ok0 (i : Z) : okf32 i f32_zero.
Proof. split; [reflexivity|]. change (val f32_zero) with 0. rewrite Rabs_R0. apply bpow_ge_0. Qed.

(** ** Planes *)
Definition fdot3 (n p : f32 * f32 * f32) : f32 :=
  let '(a, b, c) := n in let '(x, y, z) := p in ((f32_zero +' a *' x) +' b *' y) +' c *' z.
Definition fdist (n : f32 * f32 * f32) (w : f32) (p : f32 * f32 * f32) : f32 := fdot3 n p +' w.
Definition fproj (n : f32 * f32 * f32) (d : f32) (p : f32 * f32 * f32) : f32 * f32 * f32 :=
  let '(a, b, c) := n in let '(x, y, z) := p in (x -' a *' d, y -' b *' d, z -' c *' d).
Lemma plane_steps (cfg : Cfg) n w p : vec_dist_plane (l3 n ++ [w]) (l3 p) = Ok (fdist n w p) /\
  vec_project_plane (l3 n ++ [w]) (l3 p) = Ok (l3 (fproj n (fdist n w p) p)).
Proof. destruct n as [[a b] c], p as [[x y] z]. split; reflexivity. Qed.
Lemma fdist_F n w p : (forall k, (k < 3)%nat -> okf32 50 (comp k n)) -> (forall k, (k < 3)%nat -> okf32 50 (comp k p)) -> okf32 100 w ->
  okf32 108 (fdist n w p) /\
  Rabs (val (fdist n w p) - (dot3 (vals n) (vals p) + val w)) <= 6 * uro * (len3R (vals n) * len3R (vals p) + Rabs (val w)) + 4 * eta.
Proof.
  intros HN HP HW. destruct n as [[a b] c], p as [[x y] z].
  pose proof (HN 0%nat ltac:(lia)) as N0. pose proof (HN 1%nat ltac:(lia)) as N1. pose proof (HN 2%nat ltac:(lia)) as N2.
  pose proof (HP 0%nat ltac:(lia)) as P0. pose proof (HP 1%nat ltac:(lia)) as P1. pose proof (HP 2%nat ltac:(lia)) as P2. cbn [comp fst snd] in *.
  destruct (okf32_mult 50 50 _ _ N0 P0 ltac:(lia)) as (Q0 & E0). destruct (okf32_mult 50 50 _ _ N1 P1 ltac:(lia)) as (Q1 & E1).
  destruct (okf32_mult 50 50 _ _ N2 P2 ltac:(lia)) as (Q2 & E2).
  destruct (okf32_plus 100 _ _ (ok0 100) Q0 ltac:(lia)) as (S1 & F1). apply (okf32_le 100 101) in Q1; [|lia].
  destruct (okf32_plus 101 _ _ S1 Q1 ltac:(lia)) as (S2 & F2). apply (okf32_le 100 102) in Q2; [|lia].
  destruct (okf32_plus 102 _ _ S2 Q2 ltac:(lia)) as (S3 & F3). apply (okf32_le 100 103) in HW; [|lia].
  destruct (okf32_plus 103 _ _ S3 HW ltac:(lia)) as (S4 & F4).
  split; [apply (okf32_le 104 108); [exact S4|lia]|]. cbn [vals dot3].
  exact (plane_err uro eta us ltac:(pose proof es; lra) _ _ _ _ _ _ _ _ _ _ _ _ (abs_dot (val a) (val b) (val c) (val x) (val y) (val z)) E0 E1 E2 F1 F2 F3 F4).
Qed.
Lemma ok_of (i : nat) (x : f32) : fin x /\ Rabs (val x) <= 2 ^ i -> okf32 (Z.of_nat i) x.
Proof. intros (F & B). split; [exact F|]. rewrite (bpow_powerRZ radix2), <- pow_powerRZ. exact B. Qed.

(** C195: the signed distance is accurate relative to |n| |p| + |w|, for any
    normal; away from the plane by more than that the side is right. *)
Theorem C195_distance_to_plane :
  forall (cfg : Cfg) (n : f32 * f32 * f32) (w : f32) (p : f32 * f32 * f32),
  (forall k, (k < 3)%nat -> fin (comp k n) /\ Rabs (val (comp k n)) <= 2 ^ 50) ->
  (forall k, (k < 3)%nat -> fin (comp k p) /\ Rabs (val (comp k p)) <= 2 ^ 50) ->
  fin w /\ Rabs (val w) <= 2 ^ 100 ->
  let D := dot3 (vals n) (vals p) + val w in
  let B := 6 / 2 ^ 24 * (len3R (vals n) * len3R (vals p) + Rabs (val w)) + 4 / 2 ^ 150 in
  exists r, vec_dist_plane (l3 n ++ [w]) (l3 p) = Ok r /\ fin r /\
  Rabs (val r - D) <= B /\ (B < D -> 0 < val r) /\ (D < - B -> val r < 0).
Proof.
  intros cfg n w p HN HP HW D B. exists (fdist n w p). split; [apply plane_steps|].
  destruct (fdist_F n w p (fun k Hk => ok_of 50 _ (HN k Hk)) (fun k Hk => ok_of 50 _ (HP k Hk)) (ok_of 100 _ HW)) as ((F & _) & E).
  assert (E' : Rabs (val (fdist n w p) - D) <= B).
  { unfold B. replace (6 / 2 ^ 24) with (6 * uro) by (unfold uro; field; apply pow_nonzero; lra). replace (4 / 2 ^ 150) with (4 * eta) by (unfold eta, Rdiv; ring). exact E. }
  split; [exact F|]. split; [exact E'|]. apply abs_le_inv in E'. split; intros; lra.
Qed.
Print Assumptions C195_distance_to_plane.

(** For a normal of length 1 up to e the projected point is close to the exact
    one, and it lies close to the plane. *)
Theorem C195_project_onto_plane :
  forall (cfg : Cfg) (n : f32 * f32 * f32) (w : f32) (p : f32 * f32 * f32) (e : R),
  (forall k, (k < 3)%nat -> fin (comp k n)) -> Rabs (len3R (vals n) - 1) <= e -> e <= / 100 ->
  (forall k, (k < 3)%nat -> fin (comp k p) /\ Rabs (val (comp k p)) <= 2 ^ 50) ->
  fin w /\ Rabs (val w) <= 2 ^ 100 ->
  let D := dot3 (vals n) (vals p) + val w in
  let M := len3R (vals p) + Rabs (val w) in
  exists q, vec_project_plane (l3 n ++ [w]) (l3 p) = Ok (l3 q) /\ (forall k, (k < 3)%nat -> fin (comp k q)) /\
  dist3 (vals q) (sub3 (vals p) (scale3 D (vals n))) <= 17 / 2 ^ 24 * M + 13 / 2 ^ 150 /\
  Rabs (dot3 (vals n) (vals q) + val w) <= 201 / 100 * e * Rabs D + 18 / 2 ^ 24 * M + 14 / 2 ^ 150.
Proof.
  intros cfg n w p e FN HL He HP HW D M. pose proof us as U1. pose proof es as E1.
  assert (NL : 99 / 100 <= len3R (vals n) <= 101 / 100) by (apply abs_le_inv in HL; lra).
  assert (NC : forall k, (k < 3)%nat -> Rabs (val (comp k n)) <= 101 / 100).
  { intros k Hk. destruct n as [[a b] c]. destruct (len3_comp (val a) (val b) (val c)) as (A & B & C). cbn [vals] in NL. destruct k as [|[|[|k]]]; try lia; cbn [comp fst snd]; lra. }
  assert (NO : forall k, (k < 3)%nat -> okf32 1 (comp k n)) by (intros k Hk; split; [apply FN, Hk|]; change (bp 1) with 2; specialize (NC k Hk); lra).
  assert (PO : forall k, (k < 3)%nat -> okf32 50 (comp k p)) by (intros k Hk; exact (ok_of 50 _ (HP k Hk))).
  destruct (fdist_F n w p (fun k Hk => okf32_le 1 50 _ (NO k Hk) ltac:(lia)) PO (ok_of 100 _ HW)) as (FD & ED). fold D in ED.
  set (d := fdist n w p) in *. exists (fproj n d p). split; [apply (plane_steps cfg)|].
  set (S := len3R (vals n) * len3R (vals p) + Rabs (val w)) in *.
  assert (P0 : 0 <= len3R (vals p)) by apply len3_nonneg. assert (W0 : 0 <= Rabs (val w)) by apply Rabs_pos.
  assert (SM : S <= 101 / 100 * M).
  { unfold S, M. assert (len3R (vals n) * len3R (vals p) <= 101 / 100 * len3R (vals p)) by (apply Rmult_le_compat_r; lra). lra. }
  assert (DS : Rabs D <= S).
  { unfold D, S. eapply Rle_trans; [apply Rabs_triang|]. apply Rplus_le_compat_r. apply len3_cs. }
  assert (uM : 0 <= uro * M) by (apply Rmult_le_pos; unfold M; lra).
  assert (uS : uro * S <= 101 / 100 * (uro * M)) by (replace (101 / 100 * (uro * M)) with (uro * (101 / 100 * M)) by ring; apply Rmult_le_compat_l; lra).
  assert (uP : uro * len3R (vals p) <= uro * M) by (apply Rmult_le_compat_l; unfold M; lra).
  assert (C : forall a x, okf32 1 a -> Rabs (val a) <= 101 / 100 -> okf32 50 x -> Rabs (val x) <= len3R (vals p) ->
     fin (x -' a *' d) /\ Rabs (val (x -' a *' d) - (val x - D * val a)) <= 94 / 10 * (uro * M) + 6 * eta).
  { intros a x OA BA OX BX. destruct (okf32_mult 1 108 _ _ OA FD ltac:(lia)) as (Q & EQ).
    destruct (okf32_minus 109 _ _ (okf32_le 50 109 _ OX ltac:(lia)) Q ltac:(lia)) as ((F & _) & ER). split; [exact F|].
    rewrite (Rmult_comm D). eapply Rle_trans; [exact (plane_comp uro eta U1 ltac:(lra) (val a) (val x) D (val d) _ _ (len3R (vals p)) S BA BX DS ED EQ ER)|].
    unfold S in *. lra. }
  assert (CP : forall k, (k < 3)%nat -> Rabs (val (comp k p)) <= len3R (vals p)).
  { intros k Hk. destruct p as [[x y] z]. destruct (len3_comp (val x) (val y) (val z)) as (A & B & C0). destruct k as [|[|[|k]]]; try lia; cbn [comp fst snd vals]; assumption. }
  assert (CC : forall k, (k < 3)%nat -> fin (comp k (fproj n d p)) /\ Rabs (val (comp k (fproj n d p)) - comp k (sub3 (vals p) (scale3 D (vals n)))) <= 94 / 10 * (uro * M) + 6 * eta).
  { intros k Hk. specialize (NO k Hk). specialize (NC k Hk). specialize (PO k Hk). specialize (CP k Hk). clearbody d. clear - C NO NC PO CP Hk.
    destruct n as [[a b] c], p as [[x y] z]. destruct k as [|[|[|k]]]; try lia; cbn [fproj comp fst snd vals sub3 scale3] in *; apply C; assumption. }
  assert (HD : dist3 (vals (fproj n d p)) (sub3 (vals p) (scale3 D (vals n))) <= 17 * (uro * M) + 13 * eta).
  { pose proof (proj2 (CC 0%nat ltac:(lia))) as C0. pose proof (proj2 (CC 1%nat ltac:(lia))) as C1. pose proof (proj2 (CC 2%nat ltac:(lia))) as C2.
    unfold dist3. destruct (fproj n d p) as [[r0 r1] r2], (sub3 (vals p) (scale3 D (vals n))) as [[s0 s1] s2]. cbn [comp fst snd vals sub3] in *.
    eapply Rle_trans; [apply (len_box _ _ _ (94 / 10 * (uro * M) + 6 * eta)); [lra|exact C0|exact C1|exact C2]|]. lra. }
  split; [intros k Hk; apply (CC k Hk)|].
  replace (17 / 2 ^ 24 * M) with (17 * (uro * M)) by (unfold uro; field; apply pow_nonzero; lra).
  replace (18 / 2 ^ 24 * M) with (18 * (uro * M)) by (unfold uro; field; apply pow_nonzero; lra).
  replace (13 / 2 ^ 150) with (13 * eta) by (unfold eta, Rdiv; ring). replace (14 / 2 ^ 150) with (14 * eta) by (unfold eta, Rdiv; ring).
  split; [exact HD|].
  set (q := vals (fproj n d p)) in *. set (q0 := sub3 (vals p) (scale3 D (vals n))) in *.
  assert (EQ : dot3 (vals n) q + val w = dot3 (vals n) (sub3 q q0) + D * (1 - len3R (vals n) * len3R (vals n))).
  { rewrite len3_sq. unfold q0, D. clear. destruct (vals n) as [[a b] c], q as [[x y] z], (vals p) as [[s t] v]. cbn [dot3 sub3 scale3]. ring. }
  rewrite EQ. eapply Rle_trans; [apply Rabs_triang|]. rewrite (Rabs_mult D).
  assert (T1 : Rabs (dot3 (vals n) (sub3 q q0)) <= 101 / 100 * (17 * (uro * M) + 13 * eta)).
  { eapply Rle_trans; [apply len3_cs|]. apply Rmult_le_compat; [apply len3_nonneg|apply len3_nonneg|lra|exact HD]. }
  assert (T2 : Rabs (1 - len3R (vals n) * len3R (vals n)) <= 201 / 100 * e).
  { set (L := len3R (vals n)) in *. replace (1 - L * L) with (- ((L - 1) * (1 + L))) by ring. rewrite Rabs_Ropp. eapply Rle_trans; [apply (prod_le _ _ e (201 / 100)); [exact HL|rewrite Rabs_pos_eq; lra]|lra]. }
  assert (T3 : Rabs D * Rabs (1 - len3R (vals n) * len3R (vals n)) <= Rabs D * (201 / 100 * e)) by (apply Rmult_le_compat_l; [apply Rabs_pos|exact T2]).
  lra.
Qed.
Print Assumptions C195_project_onto_plane.

(** ** Spheres *)
Definition flen2 (d : f32 * f32 * f32) : f32 := let '(x, y, z) := d in ((f32_zero +' x *' x) +' y *' y) +' z *' z.
Definition fscale3 (d : f32 * f32 * f32) (w : f32) : f32 * f32 * f32 := let '(x, y, z) := d in (x *' w, y *' w, z *' w).
Definition fadd3 (p q : f32 * f32 * f32) : f32 * f32 * f32 :=
  let '(a, b, c) := p in let '(x, y, z) := q in (a +' x, b +' y, c +' z).
Lemma sphere_steps (cfg : Cfg) c w p :
  vec_dist_sphere (l3 c ++ [w]) (l3 p) = Ok (b32_sqrt mode_NE (flen2 (fsub3 p c)) -' w) /\
  forall l m, vecf_normalize 3 (l3 (fsub3 p c)) = Ok (l, l3 m) ->
  vecf_project_sphere (l3 c ++ [w]) (l3 p) = Ok (l3 (fadd3 c (fscale3 m w))).
Proof.
  destruct c as [[a b] c], p as [[x y] z]. split; [reflexivity|]. intros l [[m0 m1] m2] E.
  unfold vecf_project_sphere.
  assert (E1 : vec_sub_vector 3 (l3 (a, b, c) ++ [w]) 0 = Ok [a; b; c]) by reflexivity. rewrite E1. cbn [bind].
  assert (E2 : vec_sub_assign 3 (l3 (x, y, z)) (Val [a; b; c]) = Ok (l3 (fsub3 (x, y, z) (a, b, c)))) by reflexivity. rewrite E2. cbn [bind].  rewrite E. reflexivity.
Qed.
(** The square root of any finite non-negative number. *)
Lemma sqrt_any (s : f32) : fin s -> 0 <= val s ->
  fin (b32_sqrt mode_NE s) /\ 0 <= val (b32_sqrt mode_NE s) /\ Rabs (val (b32_sqrt mode_NE s) - sqrt (val s)) <= uro * Rabs (sqrt (val s)).
Proof.
  intros F H. destruct (Rle_lt_or_eq_dec _ _ H) as [P|Z].
  - destruct (sqrt_fin s F P) as (FR & ER).
    assert (Low : bp (-126) <= Rabs (sqrt (val s))).
    { rewrite Rabs_pos_eq by apply sqrt_pos.
      assert (G : bp (-150) <= val s) by (apply Rle_trans with (bp (-149)); [apply bpow_le; lia|]; apply (generic_format_ge_bpow radix2 (FLT_exp (-149) 24)); [intros e; unfold FLT_exp; lia|exact P|apply generic_format_B2R]).
      apply Rle_trans with (sqrt (bp (-150))); [|apply sqrt_le_1_alt; exact G].
      replace (bp (-150)) with (bp (-75) * bp (-75)) by (rewrite <- bpow_plus; reflexivity). rewrite sqrt_square by apply bpow_ge_0. apply bpow_le. lia. }
    destruct (rnd_rel _ Low) as (d & Hd & Ed). rewrite ER, Ed. split; [exact FR|].
    pose proof us as U. apply abs_le_inv in Hd as Hd'. pose proof (sqrt_pos (val s)). split; [apply Rmult_le_pos; lra|].
    replace (sqrt (val s) * (1 + d) - sqrt (val s)) with (d * sqrt (val s)) by ring. rewrite Rabs_mult. apply Rmult_le_compat_r; [apply Rabs_pos|exact Hd].
  - assert (ZS : value (b32_sqrt mode_NE s) = Number 0).
    { rewrite value_sqrt, (value_fin s F), <- Z. cbn [nsqrt]. rewrite Rlt_bool_false by lra. rewrite sqrt_0, rnd_0. reflexivity. }
    apply value_number in ZS as (FR & ER). rewrite ER, <- Z, sqrt_0, Rminus_0_r, Rabs_R0. split; [exact FR|]. split; lra.
Qed.
Definition tiny : R := bp (-74).
Lemma tiny_pos : 0 < tiny. Proof. apply bpow_gt_0. Qed.
Lemma tiny_sq : 4 * eta <= tiny * tiny.
Proof.
  unfold tiny. rewrite <- bpow_plus. replace eta with (bp (-150)) by (unfold eta; change (-150)%Z with (Z.opp 150); rewrite bpow_opp, (bpow_pow 150); reflexivity).
  change 4 with (bp 2). rewrite <- bpow_plus. apply bpow_le. lia.
Qed.
Lemma flen2_F d : (forall k, (k < 3)%nat -> okf32 51 (comp k d)) ->
  okf32 108 (flen2 d) /\ 0 <= val (flen2 d) /\
  Rabs (val (flen2 d) - len3R (vals d) * len3R (vals d)) <= 44 / 10 * uro * (len3R (vals d) * len3R (vals d)) + 4 * eta.
Proof.
  intros HD. destruct d as [[x y] z]. pose proof (HD 0%nat ltac:(lia)) as X. pose proof (HD 1%nat ltac:(lia)) as Y. pose proof (HD 2%nat ltac:(lia)) as Z. cbn [comp fst snd] in *.
  destruct (okf32_mult 51 51 _ _ X X ltac:(lia)) as (Q0 & E0). destruct (okf32_mult 51 51 _ _ Y Y ltac:(lia)) as (Q1 & E1).
  destruct (okf32_mult 51 51 _ _ Z Z ltac:(lia)) as (Q2 & E2).
  destruct (okf32_plus 102 _ _ (ok0 102) Q0 ltac:(lia)) as (S1 & F1). apply (okf32_le 102 103) in Q1; [|lia].
  destruct (okf32_plus 103 _ _ S1 Q1 ltac:(lia)) as (S2 & F2). apply (okf32_le 102 104) in Q2; [|lia].
  destruct (okf32_plus 104 _ _ S2 Q2 ltac:(lia)) as (S3 & F3).
  split; [apply (okf32_le 105 108); [exact S3|lia]|]. rewrite len3_sq. cbn [vals dot3].
  pose proof (Rle_0_sqr (val x)) as X0. pose proof (Rle_0_sqr (val y)) as Y0. pose proof (Rle_0_sqr (val z)) as Z0. unfold Rsqr in X0, Y0, Z0.
  split; [|exact (square_err uro eta us ltac:(pose proof es; lra) _ _ _ _ _ _ _ _ _ X0 Y0 Z0 E0 E1 E2 F1 F2 F3)].
  assert (PM : forall a b : f32, fin (a *' b) -> 0 <= val a * val b -> 0 <= val (a *' b)).
  { intros a b F H. destruct (fin_mult _ _ F) as (_ & _ & ->). apply round_ge_generic; [apply FLT_exp_valid; reflexivity|apply valid_rnd_N|apply generic_format_0|exact H]. }
  assert (PP : forall a b : f32, fin (a +' b) -> 0 <= val a -> 0 <= val b -> 0 <= val (a +' b)).
  { intros a b F A B. destruct (fin_plus _ _ F) as (_ & _ & ->). apply round_ge_generic; [apply FLT_exp_valid; reflexivity|apply valid_rnd_N|apply generic_format_0|lra]. }
  cbn [flen2]. apply PP; [apply S3| |apply PM; [apply Q2|exact Z0]]. apply PP; [apply S2| |apply PM; [apply Q1|exact Y0]]. apply PP; [apply S1|apply Rle_refl|apply PM; [apply Q0|exact X0]].
Qed.
(** The rounded difference p - c. *)
Lemma diff_F i c p : (0 <= i < 120)%Z -> (forall k, (k < 3)%nat -> okf32 i (comp k c)) -> (forall k, (k < 3)%nat -> okf32 i (comp k p)) ->
  (forall k, (k < 3)%nat -> okf32 (i + 1) (comp k (fsub3 p c)) /\ Rabs (val (comp k (fsub3 p c)) - comp k (sub3 (vals p) (vals c))) <= uro * Rabs (comp k (sub3 (vals p) (vals c)))) /\
  Rabs (len3R (vals (fsub3 p c)) - len3R (sub3 (vals p) (vals c))) <= uro * len3R (sub3 (vals p) (vals c)).
Proof.
  intros Hi HC HP.
  assert (K : forall k, (k < 3)%nat -> okf32 (i + 1) (comp k (fsub3 p c)) /\ Rabs (val (comp k (fsub3 p c)) - comp k (sub3 (vals p) (vals c))) <= uro * Rabs (comp k (sub3 (vals p) (vals c)))).
  { intros k Hk. destruct (edge i c p Hi HC HP k Hk) as (O & d & Hd & E). split; [exact O|]. rewrite E.
    match goal with |- Rabs (?x * (1 + d) - ?x) <= _ => replace (x * (1 + d) - x) with (d * x) by ring end. rewrite Rabs_mult. apply Rmult_le_compat_r; [apply Rabs_pos|exact Hd]. }
  split; [exact K|].
  pose proof (proj2 (K 0%nat ltac:(lia))) as K0. pose proof (proj2 (K 1%nat ltac:(lia))) as K1. pose proof (proj2 (K 2%nat ltac:(lia))) as K2.
  destruct (fsub3 p c) as [[x y] z], (sub3 (vals p) (vals c)) as [[a b] d]. cbn [comp fst snd vals] in *.
  apply (len_rel_comp uro us _ _ _ _ _ _ K0 K1 K2).
Qed.

(** C196: the distance to a sphere, with no lower bound on the distance of the
    point from the centre. *)
Theorem C196_distance_to_sphere :
  forall (cfg : Cfg) (c : f32 * f32 * f32) (w : f32) (p : f32 * f32 * f32),
  (forall k, (k < 3)%nat -> fin (comp k c) /\ Rabs (val (comp k c)) <= 2 ^ 50) ->
  (forall k, (k < 3)%nat -> fin (comp k p) /\ Rabs (val (comp k p)) <= 2 ^ 50) ->
  fin w /\ Rabs (val w) <= 2 ^ 100 ->
  let D := dist3 (vals p) (vals c) - val w in
  let B := 6 / 2 ^ 24 * dist3 (vals p) (vals c) + / 2 ^ 24 * Rabs (val w) + / 2 ^ 73 in
  exists r, vec_dist_sphere (l3 c ++ [w]) (l3 p) = Ok r /\ fin r /\
  Rabs (val r - D) <= B /\ (B < D -> 0 < val r) /\ (D < - B -> val r < 0).
Proof.
  intros cfg c w p HC HP HW D B. pose proof us as U1. pose proof es as E1.
  destruct (diff_F 50 c p ltac:(lia) (fun k Hk => ok_of 50 _ (HC k Hk)) (fun k Hk => ok_of 50 _ (HP k Hk))) as (K & HL).
  destruct (flen2_F (fsub3 p c) (fun k Hk => proj1 (K k Hk))) as (OS & S0 & ES).
  destruct (sqrt_any _ (proj1 OS) S0) as (FL & L0 & EL).
  exists (b32_sqrt mode_NE (flen2 (fsub3 p c)) -' w). split; [apply sphere_steps|].
  set (s := flen2 (fsub3 p c)) in *. set (l := b32_sqrt mode_NE s) in *.
  assert (OL : okf32 110 l).
  { split; [exact FL|]. rewrite Rabs_pos_eq by exact L0. destruct OS as (_ & BS). rewrite Rabs_pos_eq in BS by exact S0.
    assert (sqrt (val s) <= bp 54) by (replace (bp 54) with (sqrt (bp 108)) by (replace (bp 108) with (bp 54 * bp 54) by (rewrite <- bpow_plus; reflexivity); apply sqrt_square, bpow_ge_0); apply sqrt_le_1_alt; exact BS).
    pose proof (sqrt_pos (val s)) as Q0. rewrite (Rabs_pos_eq _ Q0) in EL. apply abs_le_inv in EL.
    assert (uro * sqrt (val s) <= 1 * sqrt (val s)) by (apply Rmult_le_compat_r; lra).
    apply Rle_trans with (2 * bp 54); [lra|]. change 2 with (bp 1). rewrite <- bpow_plus. apply bpow_le. lia. }
  destruct (okf32_minus 110 l w OL (okf32_le 100 110 _ (ok_of 100 _ HW) ltac:(lia)) ltac:(lia)) as ((FR & _) & ER).
  split; [exact FR|].
  assert (E' : Rabs (val (l -' w) - D) <= B).
  { pose proof tiny_pos as TP. pose proof tiny_sq as TS.
    assert (ES' : Rabs (val s - len3R (vals (fsub3 p c)) * len3R (vals (fsub3 p c))) <= 44 / 10 * uro * (len3R (vals (fsub3 p c)) * len3R (vals (fsub3 p c))) + tiny * tiny) by (eapply Rle_trans; [exact ES|lra]).
    pose proof (sphere_err uro U1 (dist3 (vals p) (vals c)) _ (val s) (val l) (val w) (val (l -' w)) tiny (len3_nonneg _) (len3_nonneg _) ltac:(lra) HL S0 ES' EL ER) as H.
    eapply Rle_trans; [exact H|]. unfold B. replace (6 / 2 ^ 24) with (6 * uro) by (unfold uro; field; apply pow_nonzero; lra). fold uro.
    assert (T2 : 2 * tiny = / 2 ^ 73).
    { unfold tiny. change 2 with (bp 1) at 1. rewrite <- bpow_plus. change (1 + -74)%Z with (Z.opp 73). rewrite bpow_opp, (bpow_pow 73). reflexivity. }
    rewrite T2. lra. }
  split; [exact E'|]. apply abs_le_inv in E'. split; intros; lra.
Qed.
Print Assumptions C196_distance_to_sphere.

(** A point not too close to the centre is projected onto the sphere: within the
    bound of centre + w (p - c) / |p - c|, hence at distance |w| from the centre up
    to the bound. *)
Theorem C196_project_onto_sphere :
  forall (cfg : Cfg) (c : f32 * f32 * f32) (w : f32) (p : f32 * f32 * f32),
  (forall k, (k < 3)%nat -> fin (comp k c) /\ Rabs (val (comp k c)) <= 2 ^ 48) ->
  (forall k, (k < 3)%nat -> fin (comp k p) /\ Rabs (val (comp k p)) <= 2 ^ 48) ->
  fin w /\ Rabs (val w) <= 2 ^ 100 ->
  let d := sub3 (vals p) (vals c) in
  / 2 ^ 40 <= len3R d ->
  let B := 17 / 2 ^ 24 * Rabs (val w) + / 2 ^ 24 * len3R (vals c) + 2 * (Rabs (val w) + 1) / 2 ^ 150 in
  exists q, vecf_project_sphere (l3 c ++ [w]) (l3 p) = Ok (l3 q) /\ (forall k, (k < 3)%nat -> fin (comp k q)) /\
  dist3 (vals q) (add3 (vals c) (scale3 (val w / len3R d) d)) <= B /\
  Rabs (dist3 (vals q) (vals c) - Rabs (val w)) <= B.
Proof.
  intros cfg c w p HC HP HW d HL B. pose proof us as U1. pose proof es as E1.
  assert (P40 : 0 < / 2 ^ 40) by (apply Rinv_0_lt_compat, pow_lt; lra). assert (L0 : 0 < len3R d) by lra.
  destruct (diff_F 48 c p ltac:(lia) (fun k Hk => ok_of 48 _ (HC k Hk)) (fun k Hk => ok_of 48 _ (HP k Hk))) as (K & EL). fold d in K, EL.
  set (d' := fsub3 p c) in *. change (48 + 1)%Z with 49%Z in K.
  assert (HD : forall k, (k < 3)%nat -> fin (comp k d') /\ Rabs (val (comp k d')) <= 2 ^ 50).
  { intros k Hk. destruct (K k Hk) as (O & _). apply (okf32_le 49 50) in O; [|lia]. rewrite E50. exact O. }
  assert (LB : / 2 ^ 50 <= len3R (vals d')).
  { apply Rle_trans with (/ 2 * / 2 ^ 40).
    - rewrite <- Rinv_mult. apply Rinv_le_contravar; [apply Rmult_lt_0_compat; [lra|apply pow_lt; lra]|]. change (2 * 2 ^ 40) with (2 ^ 41). apply Rle_pow; [lra|lia].
    - apply abs_le_inv in EL. assert (uro * len3R d <= / 2 * len3R d) by (apply Rmult_le_compat_r; lra). lra. }
  assert (L0' : 0 < len3R (vals d')) by (eapply Rlt_le_trans; [|exact LB]; apply Rinv_0_lt_compat, pow_lt; lra).
  destruct (normalize3 cfg d' HD LB) as (l & m & EN & HM & _).
  pose proof (proj2 (sphere_steps cfg c w p) l m EN) as ES. exists (fadd3 c (fscale3 m w)). split; [exact ES|]. clear ES EN.
  (* the exact direction *)
  set (W := Rabs (val w)). assert (W0 : 0 <= W) by apply Rabs_pos.
  assert (U : forall k, (k < 3)%nat -> Rabs (comp k d / len3R d) <= 1).
  { intros k Hk. unfold Rdiv. rewrite Rabs_mult, (Rabs_pos_eq (/ len3R d)) by (left; apply Rinv_0_lt_compat; exact L0).
    apply (Rmult_le_reg_r (len3R d)); [exact L0|]. rewrite Rmult_assoc, Rinv_l, Rmult_1_l, Rmult_1_r by lra.
    destruct d as [[x y] z]. destruct (len3_comp x y z) as (A & A' & A''). destruct k as [|[|[|k]]]; try lia; assumption. }
  assert (C : forall k, (k < 3)%nat -> fin (comp k (fadd3 c (fscale3 m w))) /\
     Rabs (val (comp k (fadd3 c (fscale3 m w))) - (val (comp k c) + comp k d / len3R d * val w)) <=
       163 / 10 * uro * Rabs (comp k d / len3R d * val w) + uro * Rabs (val (comp k c)) + 11 / 10 * eta * (W + 1)).
  { intros k Hk. destruct (K k Hk) as (_ & EK). destruct (HM k Hk) as (FM & EM). pose proof (ok_of 48 _ (HC k Hk)) as OC. specialize (U k Hk).
    pose proof (dir_comp uro eta U1 (comp k d) (val (comp k d')) (len3R d) (len3R (vals d')) (val (comp k m)) L0 L0' EK EL EM) as DM.
    assert (BM : Rabs (val (comp k m)) <= 101 / 100).
    { replace (val (comp k m)) with ((val (comp k m) - comp k d / len3R d) + comp k d / len3R d) by ring. eapply Rle_trans; [apply Rabs_triang|].
      assert (141 / 10 * uro * Rabs (comp k d / len3R d) <= 141 / 10 * uro * 1) by (apply Rmult_le_compat_l; lra). lra. }
    assert (OM : okf32 1 (comp k m)) by (split; [exact FM|]; change (bp 1) with 2; lra).
    destruct (okf32_mult 1 100 _ _ OM (ok_of 100 _ HW) ltac:(lia)) as (Q & EQ).
    destruct (okf32_plus 101 _ _ (okf32_le 48 101 _ OC ltac:(lia)) Q ltac:(lia)) as ((F & _) & ER).
    pose proof (sphere_comp uro eta U1 ltac:(lra) (val (comp k c)) (val w) (comp k d / len3R d) _ _ _ U ltac:(lra) DM EQ ER) as H. fold W in H.
    clear - F H Hk. destruct c as [[c0 c1] c2], m as [[m0 m1] m2]. destruct k as [|[|[|k]]]; try lia; (split; [exact F|exact H]). }
  split; [intros k Hk; apply (C k Hk)|].
  assert (HB : dist3 (vals (fadd3 c (fscale3 m w))) (add3 (vals c) (scale3 (val w / len3R d) d)) <= B).
  { pose proof (proj2 (C 0%nat ltac:(lia))) as C0. pose proof (proj2 (C 1%nat ltac:(lia))) as C1. pose proof (proj2 (C 2%nat ltac:(lia))) as C2.
    unfold B, dist3. fold W. replace (17 / 2 ^ 24) with (17 * uro) by (unfold uro; field; apply pow_nonzero; lra). fold uro.
    replace (2 * (W + 1) / 2 ^ 150) with (2 * (eta * (W + 1))) by (unfold eta, Rdiv; ring).
    assert (LW : len3R (comp 0 d / len3R d * val w, comp 1 d / len3R d * val w, comp 2 d / len3R d * val w) = W).
    { replace (comp 0 d / len3R d * val w, comp 1 d / len3R d * val w, comp 2 d / len3R d * val w) with (scale3 (val w) (scale3 (/ len3R d) d)).
      - rewrite len3_scale, len3_unit by lra. unfold W. ring.
      - clear. generalize (len3R d). intros t. destruct d as [[x y] z]. cbn [scale3 comp fst snd]. unfold Rdiv. f_equal; [f_equal|]; ring. }
    assert (EV : sub3 (vals (fadd3 c (fscale3 m w))) (add3 (vals c) (scale3 (val w / len3R d) d)) =
      (val (comp 0 (fadd3 c (fscale3 m w))) - (val (comp 0 c) + comp 0 d / len3R d * val w), val (comp 1 (fadd3 c (fscale3 m w))) - (val (comp 1 c) + comp 1 d / len3R d * val w), val (comp 2 (fadd3 c (fscale3 m w))) - (val (comp 2 c) + comp 2 d / len3R d * val w))).
    { clear. generalize (len3R d). intros t. destruct c as [[c0 c1] c2], (fadd3 (c0, c1, c2) (fscale3 m w)) as [[r0 r1] r2], d as [[x y] z].
      cbn [sub3 add3 vals scale3 comp fst snd]. unfold Rdiv. f_equal; [f_equal|]; ring. }
    rewrite EV.
    eapply Rle_trans; [apply (len_mix _ _ _ _ _ _ _ _ _ (163 / 10 * uro) uro (11 / 10 * eta * (W + 1)) ltac:(lra) ltac:(lra) ltac:(apply Rmult_le_pos; lra) C0 C1 C2)|].
    rewrite LW. replace (len3R (val (comp 0 c), val (comp 1 c), val (comp 2 c))) with (len3R (vals c)) by (destruct c as [[c0 c1] c2]; reflexivity).
    assert (0 <= uro * W) by (apply Rmult_le_pos; lra). assert (0 <= eta * (W + 1)) by (apply Rmult_le_pos; lra). lra. }
  split; [exact HB|].
  set (q := vals (fadd3 c (fscale3 m w))) in *. set (o := scale3 (val w / len3R d) d) in *.
  assert (LO : len3R o = W).
  { unfold o. rewrite len3_scale. unfold Rdiv. rewrite Rabs_mult, (Rabs_pos_eq (/ len3R d)) by (left; apply Rinv_0_lt_compat; exact L0). fold W. field. lra. }
  assert (EO : sub3 (sub3 q (vals c)) o = sub3 q (add3 (vals c) o)).
  { clear. destruct q as [[x y] z], (vals c) as [[a b] c0], o as [[s t] v]. cbn [sub3 add3]. f_equal; [f_equal|]; ring. }
  unfold dist3 in *. pose proof (len_sub_ge (sub3 q (vals c)) o) as G1. pose proof (len_sub_ge o (sub3 q (vals c))) as G2. rewrite (len_sub_sym o) in G2. rewrite EO, LO in G1. rewrite EO, LO in G2.
  apply Rabs_le. lra.
Qed.
Print Assumptions C196_project_onto_sphere.

(** The centre itself is returned unchanged: it has no projection. *)
Theorem C196_project_centre :
  forall (cfg : Cfg) (c : f32 * f32 * f32) (w : f32) (p : f32 * f32 * f32),
  (forall k, (k < 3)%nat -> fin (comp k c)) -> (forall k, (k < 3)%nat -> fin (comp k p)) -> fin w -> vals p = vals c ->
  exists q, vecf_project_sphere (l3 c ++ [w]) (l3 p) = Ok (l3 q) /\ (forall k, (k < 3)%nat -> fin (comp k q)) /\ vals q = vals c.
Proof.
  intros cfg c w p FC FP FW E.
  assert (Z : forall k, (k < 3)%nat -> value (comp k (fsub3 p c)) = Number 0).
  { intros k Hk. specialize (FC k Hk). specialize (FP k Hk). destruct c as [[c0 c1] c2], p as [[p0 p1] p2]. cbn [vals] in E. injection E as E0 E1 E2.
    destruct k as [|[|[|k]]]; try lia; cbn [fsub3 comp fst snd] in *; rewrite value_minus, (value_fin _ FC), (value_fin _ FP), ?E0, ?E1, ?E2; cbn [negated nadd]; rewrite Rplus_opp_r; apply rnx0. }
  assert (EN : vecf_normalize 3 (l3 (fsub3 p c)) = Ok (f32_zero, l3 (fsub3 p c))).
  { pose proof (Z 0%nat ltac:(lia)) as Z0. pose proof (Z 1%nat ltac:(lia)) as Z1. pose proof (Z 2%nat ltac:(lia)) as Z2. destruct (fsub3 p c) as [[x y] z]. apply normalize_null; assumption. }
  pose proof (proj2 (sphere_steps cfg c w p) _ _ EN) as ES. exists (fadd3 c (fscale3 (fsub3 p c) w)). split; [exact ES|]. clear ES EN.
  assert (V : forall k, (k < 3)%nat -> value (comp k (fadd3 c (fscale3 (fsub3 p c) w))) = Number (val (comp k c))).
  { intros k Hk. specialize (Z k Hk). specialize (FC k Hk). destruct (fsub3 p c) as [[x y] z].
    assert (A : forall x c, value x = Number 0 -> fin c -> value (c +' x *' w) = Number (val c)).
    { intros x0 c0 X C. rewrite value_plus, value_mult, X, (value_fin _ C), (value_fin _ FW). cbn [nmul]. rewrite Rmult_0_l, rnx0. cbn [nadd]. rewrite Rplus_0_r.
      unfold rnx. rewrite (round_generic radix2 (FLT_exp (-149) 24) _ (val c0)) by apply generic_format_B2R. rewrite Rlt_bool_true by (apply abs_B2R_lt_emax). reflexivity. }
    clear - A Z FC Hk. destruct c as [[c0 c1] c2]. destruct k as [|[|[|k]]]; try lia; cbn [fadd3 fscale3 comp fst snd] in *; apply A; assumption. }
  split; [intros k Hk; apply (value_number _ _ (V k Hk))|].
  pose proof (V 0%nat ltac:(lia)) as V0. pose proof (V 1%nat ltac:(lia)) as V1. pose proof (V 2%nat ltac:(lia)) as V2. apply value_number in V0 as (_ & V0). apply value_number in V1 as (_ & V1). apply value_number in V2 as (_ & V2).
  destruct (fadd3 c (fscale3 (fsub3 p c) w)) as [[x y] z], c as [[c0 c1] c2]. cbn [comp fst snd vals] in *. congruence.
Qed.
Print Assumptions C196_project_centre.

Definition o1 : f32 * f32 * f32 := (f32_zero, f32_one, f32_zero).
Definition o2 : f32 * f32 * f32 := (f32_two, f32_one, f32_two).
Lemma small_comp i p : (1 <= i)%nat -> In p [o1; o2] -> forall k, (k < 3)%nat -> fin (comp k p) /\ Rabs (val (comp k p)) <= 2 ^ i.
Proof.
  intros Hi Hp k Hk. assert (V1 : val f32_one = 1) by apply val_one. assert (V0 : val f32_zero = 0) by reflexivity. assert (V2 : val f32_two = 2) by apply val_two.
  assert (P : 2 <= 2 ^ i) by (rewrite <- (pow_1 2) at 1; apply Rle_pow; [lra|exact Hi]).
  destruct Hp as [<-|[<-|[]]]; destruct k as [|[|[|k]]]; try lia; cbn [o1 o2 comp fst snd]; (split; [reflexivity|]); rewrite ?V0, ?V1, ?V2; apply Rabs_le; lra.
Qed.
Example C195_hypotheses_met :
  (forall k, (k < 3)%nat -> fin (comp k o1) /\ Rabs (val (comp k o1)) <= 2 ^ 50) /\ (forall k, (k < 3)%nat -> fin (comp k o2) /\ Rabs (val (comp k o2)) <= 2 ^ 50) /\
  (fin f32_two /\ Rabs (val f32_two) <= 2 ^ 100) /\ Rabs (len3R (vals o1) - 1) <= 0 /\ dot3 (vals o1) (vals o2) + val f32_two = 3.
Proof.
  split; [apply (small_comp 50); [lia|cbn; tauto]|]. split; [apply (small_comp 50); [lia|cbn; tauto]|].
  split; [split; [reflexivity|]; rewrite val_two, Rabs_pos_eq by lra; rewrite <- (pow_1 2) at 1; apply Rle_pow; [lra|lia]|].
  cbn [o1 o2 vals]. change (val f32_zero) with 0. rewrite val_one, val_two. unfold len3R, dot3. split; [|lra].
  replace (0 * 0 + 1 * 1 + 0 * 0) with 1 by ring. rewrite sqrt_1, Rminus_diag_eq, Rabs_R0 by reflexivity. lra.
Qed.
Example C196_hypotheses_met :
  (forall k, (k < 3)%nat -> fin (comp k o1) /\ Rabs (val (comp k o1)) <= 2 ^ 48) /\ (forall k, (k < 3)%nat -> fin (comp k o2) /\ Rabs (val (comp k o2)) <= 2 ^ 48) /\
  / 2 ^ 40 <= len3R (sub3 (vals o2) (vals o1)).
Proof.
  split; [apply (small_comp 48); [lia|cbn; tauto]|]. split; [apply (small_comp 48); [lia|cbn; tauto]|].
  cbn [o1 o2 vals sub3]. change (val f32_zero) with 0. rewrite val_one, val_two. unfold len3R, dot3.
  apply Rle_trans with 1; [rewrite <- Rinv_1; apply Rinv_le_contravar; [lra|apply pow_R1_Rle; lra]|].
  rewrite <- sqrt_1 at 1. apply sqrt_le_1_alt. lra.
Qed.
