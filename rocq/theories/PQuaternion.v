(** Properties C57-C63: quaternions. *)
From Verif Require Export MQuaternion LMat4 Spec3 PMatrix3 PVector2.
Local Open Scope R_scope.

(** The array of the quaternion (x, y, z, w). *)
Definition ql (q : Quat) : list R := let '(x, y, z, w) := q in [x; y; z; w].

Ltac dq q := let x := fresh "x" in let y := fresh "y" in let z := fresh "z" in let w := fresh "w" in destruct q as [[[x y] z] w].
Ltac dv v := let x := fresh "v" in let y := fresh "v" in let z := fresh "v" in destruct v as [[x y] z].
Ltac qc := cbn -[IZR Rplus Rminus Rmult Ropp Rdiv Rinv sin cos sqrt Rabs Reqb Rltb Rleb].
Lemma cons_eq {A} (a b : A) l m : a = b -> l = m -> a :: l = b :: m.
Proof. congruence. Qed.
Lemma pair_eq {A B} (a b : A) (c d : B) : a = b -> c = d -> (a, c) = (b, d).
Proof. congruence. Qed.
Ltac qeq := repeat first [reflexivity | apply (f_equal Ok) | apply cons_eq | apply pair_eq];
  try solve [ring]; try field.

(** ** C57 *)
Theorem C57_operator_mul_is_Hamilton_product :
  forall (lim : RLim) (p q : Quat),
  q_mul (ql p) (ql q) = Ok (ql (qmulR p q)) /\
  q_mul_assign (ql p) (Val (ql q)) = Ok (ql (qmulR p q)) /\
  q_mul_assign (ql p) Self = Ok (ql (qmulR p p)).
Proof. intros lim p q. dq p; dq q. unfold q_mul. qc. split; [|split]; qeq. Qed.
Print Assumptions C57_operator_mul_is_Hamilton_product.

Lemma qmul_assoc p q r : qmulR (qmulR p q) r = qmulR p (qmulR q r).
Proof. dq p; dq q; dq r. qc. qeq. Qed.
Lemma q_mul_R {lim : RLim} p q : q_mul (ql p) (ql q) = Ok (ql (qmulR p q)).
Proof. apply (C57_operator_mul_is_Hamilton_product lim p q). Qed.
Lemma q_add_R {lim : RLim} p q : q_add (ql p) (ql q) = Ok (ql (qaddR p q)).
Proof. dq p; dq q. reflexivity. Qed.
Lemma q_sub_R {lim : RLim} p q : q_sub (ql p) (ql q) = Ok (ql (qsubR p q)).
Proof. dq p; dq q. reflexivity. Qed.
Lemma q_mul_s_R {lim : RLim} p k : q_mul_s (ql p) k = Ok (ql (qscaleR k p)).
Proof. dq p. qc. qeq. Qed.
Lemma q_abs_R {lim : RLim} p : q_abs (ql p) = Ok (qabsR p).
Proof.
  dq p. unfold q_abs. qc. unfold Rltb. destruct (Rlt_dec _ _) as [H|H]; [exfalso; nra|reflexivity].
Qed.
Lemma qdot_nonneg p : 0 <= qdotR p p.
Proof. dq p. qc. nra. Qed.
Lemma qabs_mul p q : qabsR (qmulR p q) = qabsR p * qabsR q.
Proof.
  unfold qabsR. rewrite <- sqrt_mult by apply qdot_nonneg. f_equal. dq p; dq q. qc. ring.
Qed.

Theorem C57_algebra :
  forall (lim : RLim) (p q r : Quat),
  (pq <- q_mul (ql p) (ql q) ;; q_mul pq (ql r)) = (qr <- q_mul (ql q) (ql r) ;; q_mul (ql p) qr) /\
  (s <- q_add (ql q) (ql r) ;; q_mul (ql p) s) =
    (a <- q_mul (ql p) (ql q) ;; b <- q_mul (ql p) (ql r) ;; q_add a b) /\
  (s <- q_add (ql q) (ql r) ;; q_mul s (ql p)) =
    (a <- q_mul (ql q) (ql p) ;; b <- q_mul (ql r) (ql p) ;; q_add a b) /\
  q_mul q_IDENTITY (ql p) = Ok (ql p) /\ q_mul (ql p) q_IDENTITY = Ok (ql p) /\
  q_mul q_QUATERI q_QUATERI = Ok (ql (qrealR (-1))) /\
  q_mul q_QUATERJ q_QUATERJ = Ok (ql (qrealR (-1))) /\
  q_mul q_QUATERK q_QUATERK = Ok (ql (qrealR (-1))) /\
  (ij <- q_mul q_QUATERI q_QUATERJ ;; q_mul ij q_QUATERK) = Ok (ql (qrealR (-1))) /\
  (pq <- q_mul (ql p) (ql q) ;; q_abs pq) = (a <- q_abs (ql p) ;; b <- q_abs (ql q) ;; Ok (a * b)) /\
  q_default = Ok q_IDENTITY.
Proof.
  intros lim p q r.
  change (q_IDENTITY (T:=R)) with (ql (0, 0, 0, 1)).
  change (q_QUATERI (T:=R)) with (ql (1, 0, 0, 0)).
  change (q_QUATERJ (T:=R)) with (ql (0, 1, 0, 0)).
  change (q_QUATERK (T:=R)) with (ql (0, 0, 1, 0)).
  rewrite !q_add_R. cbn [bind]. rewrite !q_mul_R. cbn [bind]. rewrite !q_mul_R, !q_add_R, !q_abs_R. cbn [bind].
  rewrite qabs_mul. rewrite qmul_assoc. dq p; dq q; dq r.
  repeat (split; [qc; qeq|]). reflexivity.
Qed.
Print Assumptions C57_algebra.

(** ** C58 *)
Theorem C58_conjugate :
  forall (lim : RLim) (p q : Quat),
  q_conjugate (ql q) = Ok (ql (qconjR q)) /\ q_get_conjugate (ql q) = Ok (ql (qconjR q)) /\
  (c <- q_get_conjugate (ql q) ;; q_get_conjugate c) = Ok (ql q) /\
  (pq <- q_mul (ql p) (ql q) ;; q_get_conjugate pq) =
    (a <- q_get_conjugate (ql q) ;; b <- q_get_conjugate (ql p) ;; q_mul a b) /\
  q_squared_abs (ql q) = Ok (qdotR q q) /\
  (c <- q_get_conjugate (ql q) ;; q_mul (ql q) c) = Ok (ql (qrealR (qdotR q q))) /\
  (c <- q_get_conjugate (ql q) ;; q_mul c (ql q)) = Ok (ql (qrealR (qdotR q q))).
Proof.
  intros lim p q.
  assert (G : forall s, q_get_conjugate (ql s) = Ok (ql (qconjR s))) by (intros s; dq s; reflexivity).
  rewrite !G, q_mul_R. cbn [bind]. rewrite !G. cbn [bind]. rewrite !q_mul_R. dq p; dq q.
  repeat (split; [qc; qeq|]). qc; qeq.
Qed.
Print Assumptions C58_conjugate.

Lemma qdot_zero q : qdotR q q = 0 -> q = qzero.
Proof. dq q. qc. intros H. assert (x = 0 /\ y = 0 /\ z = 0 /\ w = 0) as (-> & -> & -> & ->) by (repeat split; nra). reflexivity. Qed.
Lemma qdot_pos q : q <> qzero -> 0 < qdotR q q.
Proof. intros H. destruct (qdot_nonneg q) as [|E]; [assumption|]. exfalso; apply H, qdot_zero; congruence. Qed.

Theorem C58_inverse :
  forall (lim : RLim) (q : Quat),
  (q <> qzero ->
   exists i, q_inverse (ql q) = Ok i /\
     q_mul (ql q) i = Ok (ql (qrealR 1)) /\ q_mul i (ql q) = Ok (ql (qrealR 1))) /\
  (q = qzero -> q_inverse (ql q) = NonFin).
Proof.
  intros lim q. split.
  - intros Hq. pose proof (qdot_pos q Hq) as Hp.
    exists (ql (qscaleR (1 / qdotR q q) (qconjR q))). rewrite !q_mul_R. unfold q_inverse.
    dq q. cbn [qdotR] in *. qc. rewrite Reqb_false by lra. qc. split; [|split]; qeq; lra.
  - intros ->. unfold q_inverse. qc. rewrite Reqb_true by ring. reflexivity.
Qed.
Print Assumptions C58_inverse.
Example C58_hypotheses_met : (1, 2, 3, 4) <> qzero.
Proof. intros E. injection E. lra. Qed.

(** ** C59 *)
Theorem C59_normalize :
  forall (lim : RLim) (q : Quat),
  (q <> qzero ->
   exists n, q_normalize (ql q) = Ok (1 / qabsR q, ql n) /\ q_get_normalized (ql q) = Ok (ql n) /\
     qabsR n = 1 /\ q = qscaleR (qabsR q) n /\ 0 < qabsR q) /\
  (q = qzero -> q_normalize (ql q) = Ok (0, ql q) /\ q_get_normalized (ql q) = Ok (ql q)).
Proof.
  intros lim q. split.
  - intros Hq. pose proof (qdot_pos q Hq) as Hp.
    assert (Ha : 0 < qabsR q) by (apply sqrt_lt_R0; exact Hp).
    assert (Hs : qabsR q * qabsR q = qdotR q q) by (apply sqrt_sqrt; lra).
    exists (qscaleR (1 / qabsR q) q).
    assert (N : q_normalize (ql q) = Ok (1 / qabsR q, ql (qscaleR (1 / qabsR q) q))).
    { unfold q_normalize. rewrite q_abs_R. cbn [bind seqb RScalar szero sone sdiv]. rewrite Reqb_false by lra.
      cbn [bind]. generalize (1 / qabsR q); intros k. dq q. qc. qeq. }
    split; [exact N|]. split; [unfold q_get_normalized; rewrite N; reflexivity|].
    assert (Q : forall k, qdotR (qscaleR k q) (qscaleR k q) = (k * k) * qdotR q q) by (intros k; dq q; qc; ring).
    split; [|split; [|exact Ha]].
    + unfold qabsR at 1. rewrite Q, <- Hs. replace (1 / qabsR q * (1 / qabsR q) * (qabsR q * qabsR q)) with 1 by (field; lra). apply sqrt_1.
    + set (a := qabsR q) in *. clearbody a. dq q. qc. qeq; lra.
  - intros ->. unfold q_get_normalized, q_normalize. rewrite q_abs_R. unfold qabsR.
    replace (qdotR qzero qzero) with 0 by (qc; ring). rewrite sqrt_0. qc. rewrite Reqb_true by reflexivity. split; reflexivity.
Qed.
Print Assumptions C59_normalize.

Theorem C59_scalar_operations :
  forall (lim : RLim) (p q : Quat) (a : R),
  q_mul_s (ql q) a = Ok (ql (qscaleR a q)) /\
  q_mul_assign_s (ql q) a = Ok (ql (qscaleR a q)) /\
  (a <> 0 -> q_div_s (ql q) a = Ok (ql (qscaleR (/ a) q)) /\ q_div_assign_s (ql q) a = Ok (ql (qscaleR (/ a) q))) /\
  (a = 0 -> q_div_s (ql q) a = Throw /\ q_div_assign_s (ql q) a = Throw) /\
  q_add (ql p) (ql q) = Ok (ql (qaddR p q)) /\
  q_sub (ql p) (ql q) = Ok (ql (qsubR p q)) /\
  q_add_assign (ql p) (Val (ql q)) = Ok (ql (qaddR p q)) /\
  q_add_assign (ql p) Self = Ok (ql (qaddR p p)) /\
  q_sub_assign (ql p) (Val (ql q)) = Ok (ql (qsubR p q)) /\
  q_sub_assign (ql p) Self = Ok (ql qzero) /\
  q_neg (ql q) = Ok (ql (qscaleR (-1) q)) /\
  q_dot (ql p) (ql q) = Ok (qdotR p q) /\
  q_cross (ql p) (ql q) = Ok (v3 (cross3 (qvecR p) (qvecR q))) /\
  q_assign (ql p) (Val (ql q)) = Ok (ql q) /\ q_assign (ql p) Self = Ok (ql p) /\
  q_zero (ql p) = Ok (ql qzero) /\ q_identity (ql p) = Ok (ql (qrealR 1)).
Proof.
  intros lim p q a. unfold q_div_s, q_div_assign_s. dq p; dq q. qc.
  split; [qeq|]. split; [qeq|]. split.
  { intros Ha. rewrite Reqb_false by exact Ha. qc. split; qeq; exact Ha. }
  split. { intros ->. rewrite Reqb_true by reflexivity. split; reflexivity. }
  repeat (split; [qeq|]). qeq.
Qed.
Print Assumptions C59_scalar_operations.

Theorem C59_comparisons :
  forall (lim : RLim) (p q : Quat) (a delta : R),
  (exists b, q_eq (ql p) (ql q) = Ok b /\ q_neq (ql p) (ql q) = Ok (negb b) /\ (b = true <-> p = q)) /\
  (exists b, q_eq_s (ql q) a = Ok b /\ q_neq_s (ql q) a = Ok (negb b) /\ (b = true <-> q = qrealR a)) /\
  (exists b, q_is_akin (ql p) (ql q) delta = Ok b /\
     (b = true <-> let '(x, y, z, w) := qsubR p q in
        Rabs x <= delta /\ Rabs y <= delta /\ Rabs z <= delta /\ Rabs w <= delta)).
Proof.
  intros lim p q a delta. dq p; dq q. unfold q_neq. qc.
  split; [|split]; eexists; (split; [reflexivity|]).
  - split; [reflexivity|]. rewrite !andb_true_iff, !Reqb_iff. split; [intros [[[-> ->] ->] ->]; reflexivity|intros [=]; auto].
  - rewrite !negb_andb. split; [reflexivity|]. unfold qrealR. rewrite !andb_true_iff, !Reqb_iff.
    split; [intros [[[-> ->] ->] ->]; reflexivity|intros [=]; auto].
  - rewrite negb_true_iff, !orb_false_iff.
    assert (E : forall u v, Rltb u v = false <-> v <= u).
    { intros u v. destruct (Rltb_spec u v); split; intros; try lra; easy. }
    rewrite !E. tauto.
Qed.
Print Assumptions C59_comparisons.

(** ** C60 *)
(** [acts g q]: the top left 3 x 3 block of [g] maps v to q v conj(q). *)
Definition acts (g : nat -> nat -> R) (q : Quat) : Prop :=
  forall v, qpureR (mv3R g v) = qmulR (qmulR q (qpureR v)) (qconjR q).
Definition rotcell (q : Quat) (i j : nat) : R :=
  let '(x, y, z, w) := q in
  match i, j with
  | 0%nat, 0%nat => w * w + x * x - y * y - z * z
  | 0%nat, 1%nat => 2 * (x * y - w * z)
  | 0%nat, 2%nat => 2 * (x * z + w * y)
  | 1%nat, 0%nat => 2 * (x * y + w * z)
  | 1%nat, 1%nat => w * w - x * x + y * y - z * z
  | 1%nat, 2%nat => 2 * (y * z - w * x)
  | 2%nat, 0%nat => 2 * (x * z - w * y)
  | 2%nat, 1%nat => 2 * (y * z + w * x)
  | _, _ => w * w - x * x - y * y + z * z
  end.
Lemma acts_iff g q : acts g q <-> forall i j, (i < 3)%nat -> (j < 3)%nat -> g i j = rotcell q i j.
Proof.
  split.
  - intros H. pose proof (H (1, 0, 0)) as H1. pose proof (H (0, 1, 0)) as H2. pose proof (H (0, 0, 1)) as H3. clear H.
    dq q. cbn [mv3R qpureR qmulR qconjR] in *. injection H1 as A0 A1 A2 _. injection H2 as B0 B1 B2 _. injection H3 as C0 C1 C2 _.
    intros i j Hi Hj. destruct i as [|[|[|i]]]; try lia; destruct j as [|[|[|j]]]; try lia; cbn [rotcell]; lra.
  - intros H v. dq q. dv v. cbn [mv3R]. rewrite !H by lia. qc. qeq.
Qed.

Lemma q_rot_into {cfg : Cfg} {lim : RLim} D q m f : (3 <= D)%nat -> repM D D m f ->
  returns (q_get_rotation_matrix_into D (ql q) m)
    (fun r => repM D D r (fun i j => if ((i <? 3) && (j <? 3))%nat then rotcell q i j else f i j)).
Proof.
  intros HD Hm. dq q. unfold q_get_rotation_matrix_into. cbn [ql q4 rd nth_error bind].
  cbn [smul sadd ssub stwo RScalar]. cbv zeta.
  do 8 (eapply returns_bind; [eapply mat_put_rep; [eassumption|lia|lia]|];
        let H := fresh "H" in intros ? H; cbv beta in H).
  eapply returns_impl; [eapply mat_put_rep; [eassumption|lia|lia]|]. intros r Hr. cbv beta in Hr.
  eapply repM_ext; [exact Hr|]. intros i j Hi Hj. cbv beta. clear.
  destruct i as [|[|[|i]]]; destruct j as [|[|[|j]]]; reflexivity.
Qed.

Theorem C60_rotation_matrix_acts_as_conjugation :
  forall (cfg : Cfg) (lim : RLim) (D : nat) (q : Quat) (m : list R) (f : nat -> nat -> R),
  (3 <= D)%nat -> repM D D m f ->
  returns (q_get_rotation_matrix_into D (ql q) m) (fun r => exists g, repM D D r g /\
    (forall v, qpureR (mv3R g v) = qmulR (qmulR q (qpureR v)) (qconjR q)) /\
    (forall i j, (i < D)%nat -> (j < D)%nat -> (3 <= i)%nat \/ (3 <= j)%nat -> g i j = f i j)).
Proof.
  intros cfg lim D q m f HD Hm. eapply returns_impl; [apply (q_rot_into D q m f HD Hm)|].
  intros r Hr. eexists. split; [exact Hr|]. split.
  - apply acts_iff. intros i j Hi Hj. cbv beta. destruct (Nat.ltb_spec i 3); [|lia]. destruct (Nat.ltb_spec j 3); [|lia]. reflexivity.
  - intros i j _ _ H. destruct (Nat.ltb_spec i 3); [|reflexivity]. destruct (Nat.ltb_spec j 3); [lia|reflexivity].
Qed.
Print Assumptions C60_rotation_matrix_acts_as_conjugation.

Lemma q_rot_3 {cfg : Cfg} {lim : RLim} q :
  returns (q_get_rotation_matrix (ql q)) (fun r => repM 3 3 r (rotcell q)).
Proof.
  unfold q_get_rotation_matrix. eapply returns_bind; [apply mat_default_spec|]. intros d Hd.
  eapply returns_impl; [apply (q_rot_into 3 q d _ (le_n 3) Hd)|]. intros r Hr.
  eapply repM_ext; [exact Hr|]. intros i j Hi Hj. cbv beta. destruct (Nat.ltb_spec i 3); [|lia]. destruct (Nat.ltb_spec j 3); [|lia]. reflexivity.
Qed.

Theorem C60_rotation_matrix_orthogonal :
  forall (cfg : Cfg) (lim : RLim) (q : Quat),
  returns (q_get_rotation_matrix (ql q)) (fun r => exists g, repM 3 3 r g /\
    (forall v, qpureR (mv3R g v) = qmulR (qmulR q (qpureR v)) (qconjR q)) /\
    (qabsR q = 1 ->
       detR 3 g = 1 /\
       (forall i j, (i < 3)%nat -> (j < 3)%nat -> mmulR 3 g (fun a b => g b a) i j = idR i j) /\
       (forall i j, (i < 3)%nat -> (j < 3)%nat -> mmulR 3 (fun a b => g b a) g i j = idR i j))).
Proof.
  intros cfg lim q. eapply returns_impl; [apply q_rot_3|]. intros r Hr. exists (rotcell q). split; [exact Hr|].
  split; [apply acts_iff; reflexivity|]. intros Hq.
  assert (Q : qdotR q q = 1).
  { pose proof (sqrt_sqrt (qdotR q q) (qdot_nonneg q)) as E. unfold qabsR in Hq. rewrite Hq in E. lra. }
  dq q. cbn [qdotR] in Q.
  assert (W : w * w = 1 - x * x - y * y - z * z) by lra.
  assert (PW : w * w * (w * w) = (1 - x * x - y * y - z * z) * (w * w)) by (rewrite W at 1; reflexivity).
  clear Q Hq Hr.
  split; [|split].
  - replace 1 with ((x * x + y * y + z * z + w * w) ^ 3) by (rewrite W; ring).
    unfold detR, minor0. qc. ring.
  - intros i j Hi Hj. transitivity (idR i j * (x * x + y * y + z * z + w * w) ^ 2); [|rewrite W; ring].
    destruct i as [|[|[|i]]]; try lia; destruct j as [|[|[|j]]]; try lia; unfold mmulR, idR; qc; ring.
  - intros i j Hi Hj. transitivity (idR i j * (x * x + y * y + z * z + w * w) ^ 2); [|rewrite W; ring].
    destruct i as [|[|[|i]]]; try lia; destruct j as [|[|[|j]]]; try lia; unfold mmulR, idR; qc; ring.
Qed.
Print Assumptions C60_rotation_matrix_orthogonal.
Example C60_hypotheses_met : qabsR (1 / 2, 1 / 2, 1 / 2, 1 / 2) = 1.
Proof. unfold qabsR. cbn [qdotR]. replace (_ + _) with 1 by lra. apply sqrt_1. Qed.

Theorem C60_rotation_matrix_homomorphism :
  forall (cfg : Cfg) (lim : RLim) (p q : Quat),
  (pq <- q_mul (ql p) (ql q) ;; q_get_rotation_matrix pq) =
    (a <- q_get_rotation_matrix (ql p) ;; b <- q_get_rotation_matrix (ql q) ;; mat_mul 3 3 3 a b) /\
  (n <- q_neg (ql q) ;; q_get_rotation_matrix n) = q_get_rotation_matrix (ql q).
Proof.
  intros cfg lim p q. split.
  - rewrite q_mul_R. cbn [bind]. destruct (q_rot_3 p) as (a & -> & Ha). destruct (q_rot_3 q) as (b & -> & Hb).
    destruct (q_rot_3 (qmulR p q)) as (c & -> & Hc). cbn [bind].
    destruct (mat_mul_R 3 3 3 a b _ _ Ha Hb) as (d & -> & Hd). apply (eq_of_rep Hc).
    eapply repM_ext; [exact Hd|]. intros i j Hi Hj. clear -Hi Hj. dq p; dq q.
    destruct i as [|[|[|i]]]; try (exfalso; lia); destruct j as [|[|[|j]]]; try (exfalso; lia); unfold mmulR; qc; ring.
  - dq q. assert (N : q_neg (ql (x, y, z, w)) = Ok (ql (-x, -y, -z, -w))) by reflexivity.
    rewrite N. cbn [bind]. destruct (q_rot_3 (x, y, z, w)) as (a & -> & Ha).
    destruct (q_rot_3 (-x, -y, -z, -w)) as (c & -> & Hc). apply (eq_of_rep Hc).
    eapply repM_ext; [exact Ha|]. intros i j Hi Hj. clear.
    destruct i as [|[|[|i]]]; destruct j as [|[|[|j]]]; qc; ring.
Qed.
Print Assumptions C60_rotation_matrix_homomorphism.

(** ** C61 *)
Lemma sqrt4 u : sqrt (4 * (u * u)) = 2 * Rabs u.
Proof. replace (4 * (u * u)) with (Rsqr (2 * u)) by (unfold Rsqr; ring). rewrite sqrt_Rsqr_abs, Rabs_mult, (Rabs_pos_eq 2) by lra. reflexivity. Qed.

Lemma max_index3 {lim : RLim} (a b c : R) : exists k, vec_find_max_index [a; b; c] = Ok k /\
  (k = 0%nat /\ b <= a /\ c <= a \/ k = 1%nat /\ a < b /\ c <= b \/ k = 2%nat /\ a < c /\ b < c).
Proof.
  unfold vec_find_max_index, max_element_by. qc.
  destruct (Rltb_spec a b); qc; [destruct (Rltb_spec b c)|destruct (Rltb_spec a c)]; eexists; (split; [reflexivity|]);
    [right; right|right; left|right; right|left]; repeat split; lra.
Qed.

Lemma half_rt u : u <> 0 -> exists s, (s = 1 \/ s = -1) /\ 2 * Rabs u <> 0 /\
  / 2 / (2 * Rabs u) = s / (4 * u) /\ s / (4 * u) <> 0 /\ 1 / 4 / (s / (4 * u)) = s * u.
Proof.
  intros Hu. pose proof (Rabs_no_R0 u Hu) as Ha.
  destruct (Rlt_le_dec u 0) as [H|H]; [exists (-1)|exists 1]; (split; [auto|]);
    [rewrite Rabs_left in * by lra|rewrite Rabs_pos_eq in * by lra].
  - split; [lra|]. split; [field; lra|]. split; [|field; lra].
    unfold Rdiv. apply Rmult_integral_contrapositive_currified; [lra|]. apply Rinv_neq_0_compat. lra.
  - split; [lra|]. split; [field; lra|]. split; [|field; lra].
    unfold Rdiv. apply Rmult_integral_contrapositive_currified; [lra|]. apply Rinv_neq_0_compat. lra.
Qed.

(** What set( M ) computes for a matrix that represents the unit quaternion q. *)
Lemma q_set_matrix_R {cfg : Cfg} {lim : RLim} D m g q0 x y z w :
  (3 <= D)%nat -> repM D D m g -> acts g (x, y, z, w) -> x * x + y * y + z * z + w * w = 1 ->
  exists s : R, (s = 1 \/ s = -1) /\
    q_set_matrix D (ql q0) m =
      Ok (ql (s * x, s * y, s * z, s * (if Rltb (1 / 100000) (4 * (w * w)) then w
                                         else if Rltb (x * x) (y * y) && Rleb (z * z) (y * y) then w else - w))).
Proof.
  intros HD Hm Ha H1. rewrite acts_iff in Ha.
  unfold q_set_matrix. rewrite !(mat_at_ok D D m g _ _ Hm) by lia. cbn [bind]. cbv zeta.
  rewrite !Ha by lia. cbn [rotcell]. clear Ha Hm.
  dq q0. cbn [sadd ssub smul sopp sone shalf slit RLit RScalar sltb sdiv ssqrt].
  replace (w * w + x * x - y * y - z * z + (w * w - x * x + y * y - z * z) + (w * w - x * x - y * y + z * z) + 1)
    with (4 * (w * w)) by (rewrite <- H1; ring).
  destruct (Rltb_spec (1 / 100000) (4 * (w * w))) as [Hw|Hw].
  - assert (w <> 0) as Wn by nra. destruct (half_rt w Wn) as (s & Hs & E0 & E1 & E2 & E3). exists s. split; [exact Hs|].
    rewrite Rltb_false by nra. rewrite sqrt4. cbn [bind]. rewrite Reqb_false by exact E0. cbn [bind].
    rewrite E1. cbn [ql wr upd length Nat.ltb Nat.leb bind]. rewrite Reqb_false by exact E2. rewrite E3. cbn [bind].
    qeq; exact Wn.
  - destruct (max_index3 (w * w + x * x - y * y - z * z) (w * w - x * x + y * y - z * z) (w * w - x * x - y * y + z * z))
      as (k & -> & HK). cbn [bind].
    destruct HK as [(-> & K1 & K2)|[(-> & K1 & K2)|(-> & K1 & K2)]]; cbn [Nat.eqb].
    + assert (x <> 0) as Xn by nra. destruct (half_rt x Xn) as (s & Hs & E0 & E1 & E2 & E3). exists s. split; [exact Hs|].
      rewrite (Rltb_false (x * x)) by lra. cbn [andb].
      replace (1 + (w * w + x * x - y * y - z * z) - (w * w - x * x + y * y - z * z) - (w * w - x * x - y * y + z * z))
        with (4 * (x * x)) by (rewrite <- H1; ring).
      rewrite Rltb_false by nra. rewrite sqrt4. cbn [bind]. rewrite Reqb_false by exact E0. cbn [bind].
      rewrite E1. rewrite Reqb_false by exact E2. rewrite E3. cbn [bind]. cbn [ql wr upd length Nat.ltb Nat.leb bind].
      qeq; exact Xn.
    + assert (y <> 0) as Yn by nra. destruct (half_rt y Yn) as (s & Hs & E0 & E1 & E2 & E3). exists s. split; [exact Hs|].
      rewrite (Rltb_true (x * x)) by lra. rewrite Rleb_true by lra. cbn [andb].
      replace (1 + (w * w - x * x + y * y - z * z) - (w * w + x * x - y * y - z * z) - (w * w - x * x - y * y + z * z))
        with (4 * (y * y)) by (rewrite <- H1; ring).
      rewrite Rltb_false by nra. rewrite sqrt4. cbn [bind]. rewrite Reqb_false by exact E0. cbn [bind].
      rewrite E1. cbn [ql wr upd length Nat.ltb Nat.leb bind]. rewrite Reqb_false by exact E2. rewrite E3. cbn [bind].
      qeq; exact Yn.
    + assert (z <> 0) as Zn by nra. destruct (half_rt z Zn) as (s & Hs & E0 & E1 & E2 & E3). exists s. split; [exact Hs|].
      rewrite (Rleb_false (z * z)) by lra. rewrite andb_false_r.
      replace (1 + (w * w - x * x - y * y + z * z) - (w * w + x * x - y * y - z * z) - (w * w - x * x + y * y - z * z))
        with (4 * (z * z)) by (rewrite <- H1; ring).
      rewrite Rltb_false by nra. rewrite sqrt4. cbn [bind]. rewrite Reqb_false by exact E0. cbn [bind].
      rewrite E1. cbn [ql wr upd length Nat.ltb Nat.leb bind]. rewrite Reqb_false by exact E2. rewrite E3. cbn [bind].
      qeq; exact Zn.
Qed.

Lemma unit_dot q : qabsR q = 1 -> qdotR q q = 1.
Proof. intros Hq. pose proof (sqrt_sqrt (qdotR q q) (qdot_nonneg q)) as E. unfold qabsR in Hq. rewrite Hq in E. lra. Qed.

(** The cases where the constructor from a matrix recovers the quaternion: the
    top left block of the matrix is the rotation of the unit quaternion
    (x, y, z, w); other cells are arbitrary. *)
Theorem C61_from_rotation_matrix_partial :
  forall (cfg : Cfg) (lim : RLim) (D : nat) (m : list R) (g : nat -> nat -> R) (q0 : Quat) (x y z w : R),
  let q := (x, y, z, w) in
  (3 <= D)%nat -> repM D D m g -> qabsR q = 1 ->
  (forall v, qpureR (mv3R g v) = qmulR (qmulR q (qpureR v)) (qconjR q)) ->
  (1 / 100000 < 4 * (w * w) \/ w = 0 \/ (x * x < y * y /\ z * z <= y * y)) ->
  q_set_matrix D (ql q0) m = Ok (ql q) \/ q_set_matrix D (ql q0) m = Ok (ql (qscaleR (-1) q)).
Proof.
  intros cfg lim D m g q0 x y z w q HD Hm H1 Ha Hc.
  apply unit_dot in H1. destruct (q_set_matrix_R D m g q0 x y z w HD Hm Ha H1) as (s & Hs & ->).
  assert (E : (if Rltb (1 / 100000) (4 * (w * w)) then w else if Rltb (x * x) (y * y) && Rleb (z * z) (y * y) then w else - w) = w).
  { destruct (Rltb_spec (1 / 100000) (4 * (w * w))); [reflexivity|].
    destruct (Rltb_spec (x * x) (y * y)); destruct (Rleb_spec (z * z) (y * y)); cbn [andb]; lra. }
  rewrite E. unfold q. destruct Hs as [->| ->]; [left|right]; qc; qeq.
Qed.
Print Assumptions C61_from_rotation_matrix_partial.

(** Refutation: for every other unit quaternion (rotations by nearly a half
    turn about an axis whose y component does not dominate) the constructor
    returns the conjugate up to sign, i.e. the inverse rotation, and never q or
    -q. *)
Theorem C61_from_rotation_matrix_refuted :
  forall (cfg : Cfg) (lim : RLim) (D : nat) (m : list R) (g : nat -> nat -> R) (q0 : Quat) (x y z w : R),
  let q := (x, y, z, w) in
  (3 <= D)%nat -> repM D D m g -> qabsR q = 1 ->
  (forall v, qpureR (mv3R g v) = qmulR (qmulR q (qpureR v)) (qconjR q)) ->
  ~ (1 / 100000 < 4 * (w * w) \/ w = 0 \/ (x * x < y * y /\ z * z <= y * y)) ->
  returns (q_set_matrix D (ql q0) m) (fun r =>
    (r = ql (qconjR q) \/ r = ql (qscaleR (-1) (qconjR q))) /\ r <> ql q /\ r <> ql (qscaleR (-1) q)).
Proof.
  intros cfg lim D m g q0 x y z w q HD Hm H1 Ha Hc.
  apply unit_dot in H1. destruct (q_set_matrix_R D m g q0 x y z w HD Hm Ha H1) as (s & Hs & ->).
  apply Decidable.not_or in Hc. destruct Hc as [Hw Hc]. apply Decidable.not_or in Hc. destruct Hc as [W0 Hc].
  rewrite (Rltb_false (1 / 100000)) by lra.
  assert (E : Rltb (x * x) (y * y) && Rleb (z * z) (y * y) = false).
  { destruct (Rltb_spec (x * x) (y * y)); destruct (Rleb_spec (z * z) (y * y)); try reflexivity. exfalso; tauto. }
  rewrite E. apply returns_ok. cbn [qdotR q] in H1. unfold q. split.
  - destruct Hs as [->| ->]; [right|left]; qc; qeq.
  - assert (P : x * x + y * y + z * z > 0) by lra.
    split; intros F; destruct Hs as [->| ->]; cbn [ql qscaleR] in F; injection F; intros.
    + nra.
    + assert (x = 0 /\ y = 0 /\ z = 0) as (-> & -> & ->) by (repeat split; lra). lra.
    + assert (x = 0 /\ y = 0 /\ z = 0) as (-> & -> & ->) by (repeat split; lra). lra.
    + lra.
Qed.
Print Assumptions C61_from_rotation_matrix_refuted.
Example C61_hypotheses_met :
  let w := 1 / 1000 in let x := sqrt (1 - 1 / 1000000) in
  qabsR (x, 0, 0, w) = 1 /\
  ~ (1 / 100000 < 4 * (w * w) \/ w = 0 \/ (x * x < 0 * 0 /\ 0 * 0 <= 0 * 0)).
Proof.
  cbv zeta. assert (E : sqrt (1 - 1 / 1000000) * sqrt (1 - 1 / 1000000) = 1 - 1 / 1000000) by (apply sqrt_sqrt; lra).
  split; [|lra]. unfold qabsR. cbn [qdotR]. rewrite E. replace (_ + _) with 1 by lra. apply sqrt_1.
Qed.

(** ** C63 *)
Theorem C63_vector_operators :
  forall (cfg : Cfg) (lim : RLim) (q : Quat) (v : V3),
  q_add_vec (ql q) (v3 v) = Ok (ql (qaddR q (qpureR v))) /\
  q_sub_assign_vec (ql q) (v3 v) = Ok (ql (qsubR q (qpureR v))) /\
  q_mul_assign_vec (ql q) (v3 v) = Ok (ql (qmulR q (qpureR v))) /\
  q_of_vec (v3 v) = Ok (ql (qpureR v)) /\
  (forall w, q_of_vec_w (v3 v) w = Ok (ql (qaddR (qpureR v) (qrealR w)))) /\
  (forall w, q_set_vec (ql q) (v3 v) w = Ok (ql (qaddR (qpureR v) (qrealR w)))).
Proof.
  intros cfg lim q v. dq q; dv v. qc. split; [qeq|]. split; [qeq|]. split; [qeq|]. split; [qeq|]. split; intros w0; qeq.
Qed.
Print Assumptions C63_vector_operators.

(** The other three: += adds the z component to y, binary - and * return the
    scalar part first. *)
Theorem C106_vector_operators_refuted :
  forall (lim : RLim) (q : Quat) (v : V3),
  (q_add_assign_vec (ql q) (v3 v) = Ok (ql (qaddR q (qpureR v))) <-> snd v = 0) /\
  (let '(x, y, z, w) := qsubR q (qpureR v) in
   q_sub_vec (ql q) (v3 v) = Ok (ql (w, x, y, z))) /\
  (q_sub_vec (ql q) (v3 v) = Ok (ql (qsubR q (qpureR v))) <->
   exists c, qsubR q (qpureR v) = (c, c, c, c)) /\
  (let '(x, y, z, w) := qmulR q (qpureR v) in
   q_mul_vec (ql q) (v3 v) = Ok (ql (w, x, y, z))) /\
  (q_mul_vec (ql q) (v3 v) = Ok (ql (qmulR q (qpureR v))) <->
   exists c, qmulR q (qpureR v) = (c, c, c, c)).
Proof.
  intros lim q v. dq q; dv v. split; [|split; [|split; [|split]]].
  - qc. split.
    + intros [=]. lra.
    + intros ->. qeq.
  - qc. qeq.
  - qc. split.
    + intros H. injection H as H1 H2 H3 H4. exists w. qeq; lra.
    + intros (c & H). injection H as H1 H2 H3 H4. qeq; lra.
  - qc. qeq.
  - cbn -[IZR Rplus Rminus Rmult Ropp]. split.
    + intros H. injection H as H1 H2 H3 H4. exists (w * v0 + x * 0 + y * v2 - z * v1). qeq; lra.
    + intros (c & H). injection H as H1 H2 H3 H4. qeq; lra.
Qed.
Print Assumptions C106_vector_operators_refuted.
Example C63_hypotheses_met : snd ((1, 2, 3) : V3) <> 0 /\
  ~ (exists c, qsubR (4, 5, 6, 7) (qpureR (1, 2, 3)) = (c, c, c, c)) /\
  ~ (exists c, qmulR (4, 5, 6, 7) (qpureR (1, 2, 3)) = (c, c, c, c)).
Proof. split; [cbn; lra|]. split; intros (c & H); injection H; lra. Qed.
