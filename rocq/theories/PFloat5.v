(** Properties C138-C139: distances and cross products in double precision. *)
From Coq Require Import ZArith Reals Lra Psatz Bool List.
From Flocq Require Import Core.Core IEEE754.BinarySingleNaN IEEE754.Binary IEEE754.Bits.
From Verif Require Import InstF LF64 LVector LMatrix LVector2 Spec LSum PFloat LFloat PFloat2 LErr Spec10 LExt PCuller3 PFloat3 PFloat4 PFrustumF.
Import ListNotations.
Local Open Scope R_scope.
Local Existing Instance F64Scalar.
Local Notation rnd := (round radix2 (FLT_exp (-1074) 53) (Znearest (fun x => negb (Z.even x)))).
Local Notation bp := (bpow radix2).

(** Scaling every component by almost one scales the length by almost one. *)
Lemma lenR_rel (n : nat) (c e : nat -> R) : (forall i, (i < n)%nat -> exists d, Rabs d <= uro /\ c i = e i * (1 + d)) ->
  exists x, Rabs x <= uro /\ lenR n c = lenR n e * (1 + x).
Proof.
  intros H. pose proof (lenR_nonneg n e) as E0. assert (U : 0 < uro <= / 1000) by (rewrite uro_val; lra).
  assert (HI : lenR n c <= (1 + uro) * lenR n e).
  { rewrite <- (Rabs_pos_eq (1 + uro)) by lra. rewrite <- lenR_scal.
    assert (K : lenR n c <= lenR n (fun i => Rabs ((1 + uro) * e i))).
    { apply lenR_le. intros i Hi. destruct (H i Hi) as (d & Hd & ->). rewrite !Rabs_mult, Rmult_comm. apply Rmult_le_compat_r; [apply Rabs_pos|].
      rewrite (Rabs_pos_eq (1 + uro)) by lra. eapply Rle_trans; [apply Rabs_triang|]. rewrite Rabs_R1. lra. }
    eapply Rle_trans; [exact K|]. unfold lenR, dotR. apply Req_le. f_equal. apply rsum_ext. intros i Hi.
    rewrite <- Rabs_mult. apply Rabs_pos_eq. apply Rle_0_sqr. }
  assert (LO : (1 - uro) * lenR n e <= lenR n c).
  { rewrite <- (Rabs_pos_eq (1 - uro)) by lra. rewrite <- lenR_scal.
    assert (K : lenR n (fun i => (1 - uro) * e i) <= lenR n (fun i => Rabs (c i))).
    { apply lenR_le. intros i Hi. destruct (H i Hi) as (d & Hd & ->). rewrite !Rabs_mult, (Rmult_comm (Rabs (e i))). apply Rmult_le_compat_r; [apply Rabs_pos|].
      apply Rabs_le_inv in Hd. rewrite !Rabs_pos_eq by lra. lra. }
    eapply Rle_trans; [exact K|]. unfold lenR, dotR. apply Req_le. f_equal. apply rsum_ext. intros i Hi.
    rewrite <- Rabs_mult. apply Rabs_pos_eq. apply Rle_0_sqr. }
  destruct (Req_dec (lenR n e) 0) as [Z|Z].
  - exists 0. rewrite Rabs_R0. split; [lra|]. rewrite Z in *. lra.
  - exists (lenR n c / lenR n e - 1). split; [|field; exact Z]. assert (P : 0 < lenR n e) by lra. apply Rabs_le. split.
    + apply (Rmult_le_reg_r (lenR n e)); [exact P|]. replace ((lenR n c / lenR n e - 1) * lenR n e) with (lenR n c - lenR n e) by (field; exact Z). lra.
    + apply (Rmult_le_reg_r (lenR n e)); [exact P|]. replace ((lenR n c / lenR n e - 1) * lenR n e) with (lenR n c - lenR n e) by (field; exact Z). lra.
Qed.

(** C138: distance() and squared_distance(): relative errors of (n+2) 2^-52 and
    (n+3) 2^-52, however close the two points are. *)
Theorem C138_distance_error :
  forall (cfg : Cfg) (n : nat) (u v : list f64) (a b : nat -> f64),
  repV n u a -> repV n v b -> (Z.of_nat n <= 2 ^ 20)%Z ->
  (forall i, (i < n)%nat -> fin (a i) /\ Rabs (val (a i)) <= 2 ^ 499 /\ fin (b i) /\ Rabs (val (b i)) <= 2 ^ 499) ->
  let D := lenR n (fun i => val (a i) - val (b i)) in
  / 2 ^ 449 <= D ->
  exists r s, vec_distance n u v = Ok r /\ fin r /\ Rabs (val r - D) <= (INR n + 2) / 2 ^ 52 * D /\
    vec_squared_distance n u v = Ok s /\ fin s /\ Rabs (val s - D * D) <= (INR n + 3) / 2 ^ 52 * (D * D).
Proof.
  intros cfg n u v a b Hu Hv Hn HF D HD.
  assert (E499 : 2 ^ 499 = bp 499) by exact (eq_sym (bpow_pow 499)).
  assert (E449 : / 2 ^ 449 = bp (-449)) by (change (-449)%Z with (Z.opp 449); rewrite bpow_opp, (bpow_pow 449); reflexivity).
  set (c := fun i => b64_minus mode_NE (a i) (b i)).
  assert (HC : forall i, (i < n)%nat -> (fin (c i) /\ Rabs (val (c i)) <= bp 500) /\ exists d, Rabs d <= uro /\ val (c i) = (val (a i) - val (b i)) * (1 + d)).
  { intros i Hi. destruct (HF i Hi) as (F1 & B1 & F2 & B2). rewrite E499 in B1, B2.
    destruct (okf_minus 499 500 (a i) (b i) (conj F1 B1) (conj F2 B2) eq_refl ltac:(lia)) as (O & _). split; [exact O|].
    destruct (rel1_minus 499 (a i) (b i) (conj F1 B1) (conj F2 B2) ltac:(lia)) as (_ & R). exact R. }
  destruct (lenR_rel n (fun i => val (c i)) (fun i => val (a i) - val (b i)) (fun i Hi => proj2 (HC i Hi))) as (x & Hx & Ex). fold D in Ex.
  assert (U : 0 < uro <= / 1000) by (rewrite uro_val; lra). apply Rabs_le_inv in Hx as Hx'.
  assert (DP : 0 < D) by (eapply Rlt_le_trans; [|exact HD]; rewrite E449; apply bpow_gt_0).
  assert (HL : bp (-450) <= lenR n (fun i => val (c i))).
  { rewrite Ex. change (-450)%Z with (-449 + -1)%Z. rewrite bpow_plus, <- E449. change (bp (-1)) with (/ 2). apply Rmult_le_compat; try lra. }
  destruct (len_rel n c (fun i Hi => proj1 (HC i Hi)) Hn HL) as (r & t & Er & Fr & Ht & Et).
  destruct (sum_rel n c (fun i Hi => proj1 (HC i Hi)) Hn HL) as (y & Hy & Es & Fs).
  set (s := ssum n (fun i => smul (c i) (c i))).
  assert (Es' : val s = lenR n (fun i => val (c i)) * lenR n (fun i => val (c i)) * (1 + y)) by exact Es.
  assert (ED : vec_squared_distance n u v = Ok s) by exact (vec_squared_distance_spec n u v a b Hu Hv).
  exists r, s. unfold vec_distance. rewrite ED. cbn [bind]. split; [exact Er|]. split; [exact Fr|].
  pose proof (INR_bound n Hn) as NB. pose proof uro_val as UV. pose proof (bp170 n) as B170.
  assert (PR : forall p q P, Rabs p <= P -> Rabs q <= uro -> P <= / 1000 -> Rabs ((1 + p) * (1 + q) - 1) <= P + (1 + / 1000) * uro).
  { intros p q P Hp Hq HP. replace ((1 + p) * (1 + q) - 1) with (p + (1 + p) * q) by ring. eapply Rle_trans; [apply Rabs_triang|]. apply Rplus_le_compat; [exact Hp|].
    rewrite Rabs_mult. apply Rmult_le_compat; try apply Rabs_pos; [|exact Hq]. eapply Rle_trans; [apply Rabs_triang|]. rewrite Rabs_R1. lra. }
  split; [|split; [reflexivity|split; [exact Fs|]]].
  - rewrite Et, Ex. replace (D * (1 + x) * (1 + t) - D) with (((1 + t) * (1 + x) - 1) * D) by ring. rewrite Rabs_mult, (Rabs_pos_eq D) by lra.
    apply Rmult_le_compat_r; [lra|]. eapply Rle_trans; [apply (PR t x _ Ht Hx)|]; rewrite UV; lra.
  - rewrite Es', Ex. replace (D * (1 + x) * (D * (1 + x)) * (1 + y) - D * D) with (((1 + ((1 + y) * (1 + x) - 1)) * (1 + x) - 1) * (D * D)) by ring.
    rewrite Rabs_mult, (Rabs_pos_eq (D * D)) by nra. apply Rmult_le_compat_r; [nra|].
    assert (Y : Rabs y <= 2 * INR n * uro + uro / 4).
    { eapply Rle_trans; [exact Hy|]. assert (INR n * bp (-170) <= 1048576 * (uro / 1048576 / 4)) by (apply Rmult_le_compat; lra). lra. }
    pose proof (PR y x _ Y Hx ltac:(rewrite UV; lra)) as P1.
    eapply Rle_trans; [apply (PR _ x _ P1 Hx); rewrite UV; lra|]. rewrite UV. lra.
Qed.
Print Assumptions C138_distance_error.

(** C138: the distance of a finite vector to itself is exactly zero. *)
Theorem C138_distance_to_itself :
  forall (cfg : Cfg) (n : nat) (u : list f64), length u = n -> (forall x, In x u -> fin x) ->
  exists r s, vec_distance n u u = Ok r /\ val r = 0 /\ fin r /\ vec_squared_distance n u u = Ok s /\ val s = 0 /\ fin s.
Proof.
  intros cfg n u Lu HF. pose proof (repV_nth n u f64_zero Lu) as Hu. set (a := fun i => nth i u f64_zero) in *.
  assert (Z : forall k, (k <= n)%nat -> value (ssum k (fun i => smul (ssub (a i) (a i)) (ssub (a i) (a i)))) = Number 0).
  { induction k as [|k IH]; intros Hk; [reflexivity|]. cbn [ssum]. cbn [sadd smul ssub F64Scalar]. rewrite value_plus, value_mult, minus_self.
    assert (Fk : fin (a k)) by (apply HF; unfold a; apply nth_In; lia). unfold fin in Fk. rewrite Fk.
    cbn [sadd smul ssub F64Scalar] in IH. rewrite IH by lia. cbn [nmul nadd]. unfold rnx.
    replace (0 * 0) with 0 by ring. rewrite rnd_0, Rabs_R0, Rlt_bool_true by apply bpow_gt_0. cbn [nadd]. unfold rnx.
    replace (0 + 0) with 0 by ring. rewrite rnd_0, Rabs_R0, Rlt_bool_true by apply bpow_gt_0. reflexivity. }
  specialize (Z n (le_n n)). pose proof (vec_squared_distance_spec n u u a a Hu Hu) as ED. unfold vec_distance. rewrite ED. cbn [bind].
  set (s := ssum n _) in *. exists (b64_sqrt mode_NE s), s. apply value_number in Z as (Fs & Vs).
  assert (ZS : value (b64_sqrt mode_NE s) = Number 0).
  { rewrite value_sqrt, (value_fin s Fs), Vs. cbn [nsqrt]. rewrite Rlt_bool_false by lra. rewrite sqrt_0, rnd_0. reflexivity. }
  apply value_number in ZS as (Fr & Vr). repeat split; assumption.
Qed.
Print Assumptions C138_distance_to_itself.

(** C139: every component of the cross product is accurate relative to the two
    products it is the difference of, and the result is orthogonal to both
    operands up to the same relative error. *)
Lemma cross_real (p q P Q c : R) : 0 < eta -> Rabs (P - p) <= uro * Rabs p + eta -> Rabs (Q - q) <= uro * Rabs q + eta ->
  Rabs (c - (P - Q)) <= uro * Rabs (P - Q) -> Rabs (c - (p - q)) <= 3 * uro * (Rabs p + Rabs q) + 3 * eta.
Proof.
  rewrite uro_val. intros E H1 H2 H3. apply abs_tri_err in H1 as A1. apply abs_tri_err in H2 as A2.
  pose proof (Rabs_triang P (- Q)) as T. rewrite Rabs_Ropp in T. change (P + - Q) with (P - Q) in T.
  pose proof (Rabs_pos p). pose proof (Rabs_pos q). apply Rabs_le_inv in H1, H2, H3. apply Rabs_le. split; lra.
Qed.
Lemma cross_comp (a b c d : f64) : okf 500 a -> okf 500 b -> okf 500 c -> okf 500 d ->
  let r := b64_minus mode_NE (b64_mult mode_NE a b) (b64_mult mode_NE c d) in
  fin r /\ Rabs (val r - (val a * val b - val c * val d)) <= 3 * uro * (Rabs (val a * val b) + Rabs (val c * val d)) + 3 * eta.
Proof.
  intros A B C D r. destruct (okf_mult 500 500 1000 a b A B eq_refl ltac:(lia)) as (P & EP). destruct (okf_mult 500 500 1000 c d C D eq_refl ltac:(lia)) as (Q & EQ).
  destruct (okf_minus 1000 1001 _ _ P Q eq_refl ltac:(lia)) as ((F & _) & ER). split; [exact F|].
  exact (cross_real _ _ _ _ _ eta_pos EP EQ ER).
Qed.
Theorem C139_cross_error :
  forall (cfg : Cfg) (x y z x' y' z' : f64),
  (forall w, In w [x; y; z; x'; y'; z'] -> fin w /\ Rabs (val w) <= 2 ^ 500) ->
  exists cx cy cz, vec_cross [x; y; z] [x'; y'; z'] = Ok [cx; cy; cz] /\ fin cx /\ fin cy /\ fin cz /\
  Rabs (val cx - (val y * val z' - val z * val y')) <= 3 / 2 ^ 53 * (Rabs (val y * val z') + Rabs (val z * val y')) + 3 / 2 ^ 1075 /\
  Rabs (val cy - (val z * val x' - val x * val z')) <= 3 / 2 ^ 53 * (Rabs (val z * val x') + Rabs (val x * val z')) + 3 / 2 ^ 1075 /\
  Rabs (val cz - (val x * val y' - val y * val x')) <= 3 / 2 ^ 53 * (Rabs (val x * val y') + Rabs (val y * val x')) + 3 / 2 ^ 1075 /\
  Rabs (val cx * val x + val cy * val y + val cz * val z) <=
    6 / 2 ^ 53 * (Rabs (val x * val y * val z') + Rabs (val x * val z * val y') + Rabs (val y * val z * val x'))
    + 3 / 2 ^ 1075 * (Rabs (val x) + Rabs (val y) + Rabs (val z)) /\
  Rabs (val cx * val x' + val cy * val y' + val cz * val z') <=
    6 / 2 ^ 53 * (Rabs (val x' * val y' * val z) + Rabs (val x' * val z' * val y) + Rabs (val y' * val z' * val x))
    + 3 / 2 ^ 1075 * (Rabs (val x') + Rabs (val y') + Rabs (val z')).
Proof.
  intros cfg x y z x' y' z' HF.
  assert (OK : forall w, In w [x; y; z; x'; y'; z'] -> okf 500 w) by (intros w Hw; destruct (HF w Hw) as (F & B); rewrite E500 in B; split; assumption).
  pose proof (OK x ltac:(cbn; tauto)) as Ox. pose proof (OK y ltac:(cbn; tauto)) as Oy. pose proof (OK z ltac:(cbn; tauto)) as Oz.
  pose proof (OK x' ltac:(cbn; tauto)) as Ox'. pose proof (OK y' ltac:(cbn; tauto)) as Oy'. pose proof (OK z' ltac:(cbn; tauto)) as Oz'.
  assert (E : exists cx cy cz, vec_cross [x; y; z] [x'; y'; z'] = Ok [cx; cy; cz] /\
     cx = b64_minus mode_NE (b64_mult mode_NE y z') (b64_mult mode_NE z y') /\
     cy = b64_minus mode_NE (b64_mult mode_NE z x') (b64_mult mode_NE x z') /\
     cz = b64_minus mode_NE (b64_mult mode_NE x y') (b64_mult mode_NE y x')) by (do 3 eexists; split; [reflexivity|]; repeat split; reflexivity).
  destruct E as (cx & cy & cz & E & Ex & Ey & Ez). exists cx, cy, cz. split; [exact E|].
  destruct (cross_comp y z' z y' Oy Oz' Oz Oy') as (Fx & Bx). destruct (cross_comp z x' x z' Oz Ox' Ox Oz') as (Fy & By).
  destruct (cross_comp x y' y x' Ox Oy' Oy Ox') as (Fz & Bz). cbv zeta in *. rewrite <- Ex in *. rewrite <- Ey in *. rewrite <- Ez in *.
  split; [exact Fx|]. split; [exact Fy|]. split; [exact Fz|].
  unfold Rdiv. rewrite <- uro_2. change (/ 2 ^ 1075) with eta.
  split; [exact Bx|]. split; [exact By|]. split; [exact Bz|].
  assert (DOT : forall e1 e2 e3 w1 w2 w3 b1 b2 b3 : R, Rabs e1 <= b1 -> Rabs e2 <= b2 -> Rabs e3 <= b3 ->
     Rabs (e1 * w1 + e2 * w2 + e3 * w3) <= b1 * Rabs w1 + b2 * Rabs w2 + b3 * Rabs w3).
  { intros. eapply Rle_trans; [apply Rabs_triang|]. apply Rplus_le_compat; [eapply Rle_trans; [apply Rabs_triang|]; apply Rplus_le_compat|];
      rewrite Rabs_mult; apply Rmult_le_compat_r; try apply Rabs_pos; assumption. }
  split.
  - replace (val cx * val x + val cy * val y + val cz * val z) with
      ((val cx - (val y * val z' - val z * val y')) * val x + (val cy - (val z * val x' - val x * val z')) * val y + (val cz - (val x * val y' - val y * val x')) * val z) by ring.
    eapply Rle_trans; [apply (DOT _ _ _ _ _ _ _ _ _ Bx By Bz)|]. rewrite !Rabs_mult. apply Req_le. ring.
  - replace (val cx * val x' + val cy * val y' + val cz * val z') with
      ((val cx - (val y * val z' - val z * val y')) * val x' + (val cy - (val z * val x' - val x * val z')) * val y' + (val cz - (val x * val y' - val y * val x')) * val z') by ring.
    eapply Rle_trans; [apply (DOT _ _ _ _ _ _ _ _ _ Bx By Bz)|]. rewrite !Rabs_mult. apply Req_le. ring.
Qed.
Print Assumptions C139_cross_error.

(** Non-trivial instances. *)
Example C138_hypotheses_met :
  let a := fun i => nth i [f64_one; f64_two] f64_zero in let b := fun i => nth i [f64_one; f64_one] f64_zero in
  (forall i, (i < 2)%nat -> fin (a i) /\ Rabs (val (a i)) <= 2 ^ 499 /\ fin (b i) /\ Rabs (val (b i)) <= 2 ^ 499) /\
  / 2 ^ 449 <= lenR 2 (fun i => val (a i) - val (b i)).
Proof.
  assert (B : 2 <= 2 ^ 499). { replace 2 with (2 ^ 1) at 1 by ring. apply Rle_pow; [lra|lia]. }
  cbv zeta. split.
  - intros [|[|i]] Hi; try lia; cbn [nth]; rewrite ?val_one, ?val_two; (split; [reflexivity|]); (split; [rewrite Rabs_pos_eq; lra|]); (split; [reflexivity|]); rewrite Rabs_pos_eq; lra.
  - replace (lenR 2 _) with 1.
    + rewrite <- Rinv_1. apply Rinv_le; [lra|]. apply pow_R1_Rle. lra.
    + unfold lenR, dotR. cbn [rsum nth]. rewrite val_one, val_two. replace (0 + _ + _) with 1 by ring. symmetry. apply sqrt_1.
Qed.
Example C139_hypotheses_met : forall w, In w [f64_one; f64_two; f64_half; f64_half; f64_one; f64_one] -> fin w /\ Rabs (val w) <= 2 ^ 500.
Proof.
  assert (B : 2 <= 2 ^ 500). { replace 2 with (2 ^ 1) at 1 by ring. apply Rle_pow; [lra|lia]. }
  intros w Hw. cbn [In] in Hw. repeat destruct Hw as [<-|Hw]; try contradiction; (split; [reflexivity|]); rewrite ?val_one, ?val_two, ?val_half, Rabs_pos_eq; lra.
Qed.
