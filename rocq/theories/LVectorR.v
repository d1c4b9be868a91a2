(** The Vector model over the reals. *)
From Verif Require Export InstR LVector LSum.
Local Open Scope R_scope.

(** The array of a point of space. *)
Definition v3 (p : V3) : list R := let '(x, y, z) := p in [x; y; z].
Definition fn3 (p : V3) : nat -> R :=
  let '(x, y, z) := p in fun i => match i with 0%nat => x | 1%nat => y | _ => z end.

Section VR.
Context {cfg : Cfg} {lim : RLim}.

Lemma ssum_R n f : ssum n f = rsum n f.
Proof. induction n as [|n IH]; cbn [ssum rsum]; [reflexivity|]. rewrite IH; reflexivity. Qed.

Lemma v3_rep p : repV 3 (v3 p) (fn3 p).
Proof. destruct p as [[x y] z]. split; [reflexivity|]. intros [|[|[|i]]] Hi; try lia; reflexivity. Qed.

Lemma repV3_v3 l f : repV 3 l f -> l = v3 (f 0%nat, f 1%nat, f 2%nat).
Proof. intros H; apply repV3 in H; exact H. Qed.

Lemma dotR_3 p q : dotR 3 (fn3 p) (fn3 q) = dot3 p q.
Proof. destruct p as [[a b] c], q as [[x y] z]. unfold dotR; cbn. lra. Qed.

Lemma lenR_3 p : lenR 3 (fn3 p) = len3R p.
Proof. unfold lenR, len3R. rewrite dotR_3; reflexivity. Qed.

Lemma vec_dot_R M u v fu fv :
  repV M u fu -> repV M v fv -> vec_dot M u v = Ok (dotR M fu fv).
Proof. intros Hu Hv. rewrite (vec_dot_spec M u v fu fv Hu Hv), ssum_R; reflexivity. Qed.

Lemma vec_squared_length_R M v fv :
  repV M v fv -> vec_squared_length M v = Ok (dotR M fv fv).
Proof. intros Hv. rewrite (vec_squared_length_spec M v fv Hv), ssum_R; reflexivity. Qed.

Lemma ssqrt_R x : 0 <= x -> ssqrt x = Ok (sqrt x).
Proof. intros H; cbn. rewrite Rltb_false by exact H; reflexivity. Qed.

Lemma sdiv_R x y : y <> 0 -> sdiv x y = Ok (x / y).
Proof. intros H; cbn. rewrite Reqb_false by exact H; reflexivity. Qed.

Lemma vec_length_R M v fv : repV M v fv -> vec_length M v = Ok (lenR M fv).
Proof.
  intros Hv. unfold vec_length. rewrite (vec_squared_length_R M v fv Hv). cbn [bind].
  apply ssqrt_R, dotR_nonneg.
Qed.

Lemma vec_norm_R M v fv : repV M v fv -> vec_norm M v = Ok (lenR M fv).
Proof. exact (vec_length_R M v fv). Qed.

Lemma vec_squared_distance_R M u v fu fv :
  repV M u fu -> repV M v fv ->
  vec_squared_distance M u v = Ok (dotR M (fun i => fu i - fv i) (fun i => fu i - fv i)).
Proof. intros Hu Hv. rewrite (vec_squared_distance_spec M u v fu fv Hu Hv), ssum_R; reflexivity. Qed.

Lemma vec_distance_R M u v fu fv :
  repV M u fu -> repV M v fv -> vec_distance M u v = Ok (distR M fu fv).
Proof.
  intros Hu Hv. unfold vec_distance. rewrite (vec_squared_distance_R M u v fu fv Hu Hv). cbn [bind].
  apply ssqrt_R, dotR_nonneg.
Qed.

Lemma vec_normalize_zero M v fv :
  repV M v fv -> lenR M fv = 0 -> vec_normalize M v = Ok (0, v).
Proof.
  intros Hv E. unfold vec_normalize. rewrite (vec_length_R M v fv Hv), E. cbn.
  rewrite Reqb_true by reflexivity. reflexivity.
Qed.

Lemma vec_normalize_R M v fv :
  repV M v fv -> lenR M fv <> 0 ->
  returns (vec_normalize M v)
    (fun '(len, r) => len = lenR M fv /\ repV M r (fun i => fv i / lenR M fv)).
Proof.
  intros Hv E. unfold vec_normalize. rewrite (vec_length_R M v fv Hv). cbn [bind].
  cbn [seqb RScalar szero]. rewrite Reqb_false by exact E.
  rewrite sdiv_R by exact E. cbn [bind].
  destruct (vec_map_assign_spec M (fun a => Ok (smul a (1 / lenR M fv))) v fv
              (fun i => fv i * (1 / lenR M fv)) Hv) as (r & Er & Hr); [reflexivity|].
  unfold vec_mul_assign_s. cbn [sone RScalar]. rewrite Er. cbn [bind].
  apply returns_ok. split; [reflexivity|]. eapply repV_ext; [exact Hr|].
  intros i Hi; cbv beta; field; exact E.
Qed.

(** Three-dimensional vectors. *)
Lemma vec_sub_v3 a b : vec_sub 3 (v3 a) (v3 b) = Ok (v3 (sub3 a b)).
Proof. destruct a as [[a1 a2] a3], b as [[b1 b2] b3]. reflexivity. Qed.
Lemma vec_add_v3 a b : vec_add 3 (v3 a) (v3 b) = Ok (v3 (add3 a b)).
Proof. destruct a as [[a1 a2] a3], b as [[b1 b2] b3]. reflexivity. Qed.
Lemma vec_mul_s_v3 a k : vec_mul_s 3 (v3 a) k = Ok (v3 (scale3 k a)).
Proof.
  destruct a as [[a1 a2] a3]. cbn. rewrite (Rmult_comm a1), (Rmult_comm a2), (Rmult_comm a3). reflexivity.
Qed.
Lemma vec_mul_assign_s_v3 a k : vec_mul_assign_s 3 (v3 a) k = Ok (v3 (scale3 k a)).
Proof.
  destruct a as [[a1 a2] a3]. cbn. rewrite (Rmult_comm a1), (Rmult_comm a2), (Rmult_comm a3). reflexivity.
Qed.
Lemma vec_sub_assign_v3 a b : vec_sub_assign 3 (v3 a) (Val (v3 b)) = Ok (v3 (sub3 a b)).
Proof. destruct a as [[a1 a2] a3], b as [[b1 b2] b3]. reflexivity. Qed.
Lemma vec_cross_v3 a b : vec_cross (v3 a) (v3 b) = Ok (v3 (cross3 a b)).
Proof. destruct a as [[a1 a2] a3], b as [[b1 b2] b3]. reflexivity. Qed.
Lemma vec_cross_into_v3 c a b :
  vec_cross_into (v3 c) (Val (v3 a)) (Val (v3 b)) = Ok (v3 (cross3 a b)).
Proof. destruct a as [[a1 a2] a3], b as [[b1 b2] b3], c as [[c1 c2] c3]. reflexivity. Qed.
Lemma vec_dot_v3 a b : vec_dot 3 (v3 a) (v3 b) = Ok (dot3 a b).
Proof.
  destruct a as [[a1 a2] a3], b as [[b1 b2] b3]. cbn. rewrite Rplus_0_l; reflexivity.
Qed.
Lemma vec_length_v3 a : vec_length 3 (v3 a) = Ok (len3R a).
Proof. rewrite (vec_length_R 3 (v3 a) (fn3 a) (v3_rep a)), lenR_3; reflexivity. Qed.

Lemma vec_normalize_v3 a :
  len3R a <> 0 -> vec_normalize 3 (v3 a) = Ok (len3R a, v3 (scale3 (/ len3R a) a)).
Proof.
  intros E. rewrite <- lenR_3 in E.
  destruct (vec_normalize_R 3 (v3 a) (fn3 a) (v3_rep a) E) as ([len r] & Er & -> & Hr).
  rewrite Er, lenR_3. rewrite lenR_3 in Hr, E. do 2 f_equal.
  apply repV3_v3 in Hr. rewrite Hr. destruct a as [[a1 a2] a3]. cbn.
  f_equal; [field; exact E|]. f_equal; [field; exact E|]. f_equal; field; exact E.
Qed.
Lemma vec_normalize_v3_zero a :
  len3R a = 0 -> vec_normalize 3 (v3 a) = Ok (0, v3 a).
Proof. intros E. apply (vec_normalize_zero 3 (v3 a) (fn3 a) (v3_rep a)). rewrite lenR_3; exact E. Qed.

(** Geometry of space. *)
Lemma dot3_nonneg a : 0 <= dot3 a a.
Proof. destruct a as [[x y] z]; cbn; nra. Qed.
Lemma len3_nonneg a : 0 <= len3R a.
Proof. apply sqrt_pos. Qed.
Lemma len3_sq a : len3R a * len3R a = dot3 a a.
Proof. apply sqrt_sqrt, dot3_nonneg. Qed.
Lemma len3_zero a : len3R a = 0 <-> a = zero3.
Proof.
  split; intros H.
  - pose proof (len3_sq a) as E; rewrite H in E. destruct a as [[x y] z]; cbn in E. unfold zero3.
    assert (x = 0) by nra. assert (y = 0) by nra. assert (z = 0) by nra. subst; reflexivity.
  - subst a. unfold len3R, zero3; cbn. replace (0 * 0 + 0 * 0 + 0 * 0) with 0 by ring. apply sqrt_0.
Qed.
Lemma len3_scale k a : len3R (scale3 k a) = Rabs k * len3R a.
Proof.
  unfold len3R. replace (dot3 (scale3 k a) (scale3 k a)) with (k * k * dot3 a a)
    by (destruct a as [[x y] z]; cbn; ring).
  rewrite sqrt_mult; [|nra|apply dot3_nonneg]. f_equal.
  rewrite <- (sqrt_Rsqr_abs k). reflexivity.
Qed.
Lemma len3_unit a : len3R a <> 0 -> len3R (scale3 (/ len3R a) a) = 1.
Proof.
  intros H. rewrite len3_scale. pose proof (len3_nonneg a).
  rewrite Rabs_pos_eq; [field; exact H|]. left; apply Rinv_0_lt_compat; lra.
Qed.
Lemma dot3_cs a b : dot3 a b * dot3 a b <= dot3 a a * dot3 b b.
Proof. rewrite <- !dotR_3. apply dotR_cs. Qed.
Lemma len3_cs a b : Rabs (dot3 a b) <= len3R a * len3R b.
Proof. rewrite <- dotR_3, <- !lenR_3. apply lenR_cs. Qed.
Lemma len3_one_iff a : len3R a = 1 <-> dot3 a a = 1.
Proof.
  split; intros H.
  - rewrite <- len3_sq, H; ring.
  - unfold len3R; rewrite H; apply sqrt_1.
Qed.
End VR.
