(** Property C75: ray-sphere intersection. *)
From Verif Require Export PFrustum LVecProps2.
Local Open Scope R_scope.

(** The point at distance [k] from [o] along the direction of [d]. *)
Definition along (o d : V3) (k : R) : V3 := add3 o (scale3 (k / len3R d) d).

Section Ray.
Context {cfg : Cfg} {lim : RLim}.

Lemma along_dist o d c k : d <> zero3 -> 
  let u := scale3 (/ len3R d) d in let v := sub3 c o in
  dot3 (sub3 (along o d k) c) (sub3 (along o d k) c) = k * k - 2 * k * dot3 v u + dot3 v v.
Proof.
  intros Hd u v. assert (HL : len3R d <> 0) by (intros F; apply Hd, len3_zero, F).
  assert (U : dot3 u u = 1) by (apply len3_one_iff, len3_unit, HL).
  replace (sub3 (along o d k) c) with (sub3 (scale3 k u) v).
  - clearbody u v. destruct u as [[u0 u1] u2], v as [[v0 v1] v2]. cbn in *. 
    replace (k * k) with (k * k * (u0 * u0 + u1 * u1 + u2 * u2)) by (rewrite U; ring). ring.
  - unfold u, v, along. destruct o as [[o0 o1] o2], d as [[d0 d1] d2], c as [[c0 c1] c2]. cbn -[len3R]. unfold Rdiv. apply f_equal2; [apply f_equal2|]; ring.
Qed.
Lemma on_sphere_iff p c r : 0 <= r -> (dist3 p c = r <-> dot3 (sub3 p c) (sub3 p c) = r * r).
Proof.
  intros Hr. unfold dist3, len3R. split; intros H.
  - rewrite <- (sqrt_sqrt (dot3 _ _)) by apply dot3_nonneg. rewrite H. reflexivity.
  - rewrite H. apply sqrt_square, Hr.
Qed.

Theorem C75_ray_sphere o d c r t0 : d <> zero3 -> 0 <= r ->
  exists ry, ray_make (v3 o) (v3 d) = Ok ry /\
  exists hit t, ray_test_sphere ry (v3 c ++ [r]) t0 = Ok (hit, t) /\
  (hit = true <-> exists k, 0 <= k /\ dist3 (along o d k) c = r) /\
  (hit = true -> 0 <= t /\ dist3 (along o d t) c = r /\
    (r < dist3 o c -> forall k, 0 <= k -> dist3 (along o d k) c = r -> t <= k) /\
    (dist3 o c <= r -> forall k, 0 <= k -> dist3 (along o d k) c = r -> k <= t) /\
    (dist3 o c < r -> forall k, 0 <= k -> dist3 (along o d k) c = r -> k = t)) /\
  (hit = false -> t = t0).
Proof.
  intros Hd Hr. assert (HL : len3R d <> 0) by (intros F; apply Hd, len3_zero, F).
  unfold ray_make, vec_normalized. rewrite vec_normalize_v3 by exact HL. cbn [bind].
  set (u := scale3 (/ len3R d) d). eexists. split; [reflexivity|].
  set (v := sub3 c o).
  assert (U : dot3 u u = 1) by (apply len3_one_iff, len3_unit, HL).
  assert (K : forall k, dist3 (along o d k) c = r <-> k * k - 2 * k * dot3 v u + dot3 v v = r * r).
  { intros k. rewrite on_sphere_iff by exact Hr. rewrite along_dist by exact Hd. reflexivity. }
  assert (CS : dot3 v u * dot3 v u <= dot3 v v) by (pose proof (dot3_cs v u) as H; rewrite U in H; lra).
  assert (DO : dot3 v v = dist3 o c * dist3 o c).
  { unfold dist3. rewrite len3_sq. unfold v. destruct o as [[o0 o1] o2], c as [[c0 c1] c2]; cbn; ring. }
  assert (D0 : 0 <= dist3 o c) by apply len3_nonneg.
  unfold ray_test_sphere.
  assert (E : (x <- rd (v3 c ++ [r]) 0 ;; y <- rd (v3 c ++ [r]) 1 ;; z <- rd (v3 c ++ [r]) 2 ;; vec_set3 (vec_default 3) x y z) = Ok (v3 c))
    by (destruct c as [[c0 c1] c2]; reflexivity).
  assert (ER : forall (A : Type) (g : list R -> R -> res A), (x <- rd (v3 c ++ [r]) 0 ;; y <- rd (v3 c ++ [r]) 1 ;; z <- rd (v3 c ++ [r]) 2 ;; 
     w <- rd (v3 c ++ [r]) 3 ;; ce <- vec_set3 (vec_default 3) x y z ;; g ce w) = g (v3 c) r) by (intros; destruct c as [[c0 c1] c2]; reflexivity).
  rewrite (ER _ (fun center radius => centerVec <- vec_sub 3 center (v3 o) ;; _)). clear E ER. cbv beta.
  rewrite vec_sub_v3. cbn [bind]. fold v. rewrite vec_dot_v3. cbn [bind].
  rewrite (vec_squared_length_R 3 (v3 v) (fn3 v) (v3_rep v)), dotR_3. cbn [bind].
  set (p := dot3 v u) in *. set (q := dot3 v v) in *. clearbody p q. clear u v U.
  cbn [szero smul ssub sadd sltb RScalar]. cbv zeta.
  destruct (Rltb_spec (r * r) q) as [Q|Q].
  - (* outside *)
    assert (r < dist3 o c) by nra.
    destruct (Rltb_spec p 0) as [P|P]; cbn [andb].
    + exists false, t0. split; [reflexivity|]. split; [|split; [discriminate|reflexivity]]. split; [discriminate|].
      intros (k & Hk & Ek). apply K in Ek. nra.
    + destruct (Rltb_spec (r * r) (q - p * p)) as [S|S].
      * exists false, t0. split; [reflexivity|]. split; [|split; [discriminate|reflexivity]]. split; [discriminate|].
        intros (k & Hk & Ek). apply K in Ek. pose proof (Rle_0_sqr (k - p)) as SQ. unfold Rsqr in SQ. nra.
      * rewrite ssqrt_R by lra. cbn [bind]. set (s := sqrt (r * r - (q - p * p))).
        assert (Hs : 0 <= s) by apply sqrt_pos. assert (Es : s * s = r * r - (q - p * p)) by (apply sqrt_sqrt; lra). clearbody s.
        exists true, (p - s). split; [reflexivity|]. assert (T : 0 <= p - s) by nra.
        assert (H0 : dist3 (along o d (p - s)) c = r) by (apply K; nra).
        split; [split; [|reflexivity]|split; [|discriminate]]; intros _; [exists (p - s); auto|].
        split; [exact T|]. split; [exact H0|]. split; [|split; intros; exfalso; lra].
        intros _ k Hk Ek. apply K in Ek. assert (F : (k - p + s) * (k - p - s) = 0) by nra.
        apply Rmult_integral in F as [F|F]; lra.
  - (* inside *)
    assert (dist3 o c <= r) by nra. rewrite andb_false_r.
    rewrite Rltb_false by nra. rewrite ssqrt_R by nra. cbn [bind]. set (s := sqrt (r * r - (q - p * p))).
    assert (Hs : 0 <= s) by apply sqrt_pos. assert (Es : s * s = r * r - (q - p * p)) by (apply sqrt_sqrt; nra). clearbody s.
    exists true, (p + s). split; [reflexivity|]. assert (T1 : - s <= p <= s) by (split; nra). assert (T : 0 <= p + s) by lra.
    assert (H0 : dist3 (along o d (p + s)) c = r) by (apply K; nra).
    split; [split; [|reflexivity]|split; [|discriminate]]; intros _; [exists (p + s); auto|].
    split; [exact T|]. split; [exact H0|]. split; [intros; exfalso; lra|].
    assert (FF : forall k, dist3 (along o d k) c = r -> k = p - s \/ k = p + s).
    { intros k Ek. apply K in Ek. assert (F : (k - p + s) * (k - p - s) = 0) by nra. apply Rmult_integral in F as [F|F]; [left|right]; lra. }
    split.
    + intros _ k Hk Ek. destruct (FF k Ek); lra.
    + intros L k Hk Ek. assert (q < r * r) by nra. assert (p < s) by nra. destruct (FF k Ek); lra.
Qed.
(** The distance parameter is the Euclidean distance from the origin. *)
Theorem C75_parameter_is_distance o d k : d <> zero3 -> 0 <= k -> dist3 (along o d k) o = k.
Proof.
  intros Hd Hk. apply on_sphere_iff; [exact Hk|]. rewrite along_dist by exact Hd.
  replace (sub3 o o) with zero3 by (destruct o as [[o0 o1] o2]; unfold zero3; cbn; apply f_equal2; [apply f_equal2|]; ring).
  unfold zero3. destruct (scale3 _ d) as [[u0 u1] u2]. cbn. ring.
Qed.
Example C75_hypotheses_met : (0, 0, 2) <> zero3 /\ 0 <= 1 /\ dist3 (along (0, 0, -3) (0, 0, 2) 2) (0, 0, 0) = 1.
Proof.
  split; [intros E; injection E; lra|]. split; [lra|]. apply on_sphere_iff; [lra|]. rewrite along_dist by (intros E; injection E; lra).
  assert (L : len3R (0, 0, 2) = 2). { unfold len3R. cbn. replace (0 * 0 + 0 * 0 + 2 * 2) with (2 * 2) by ring. apply sqrt_square. lra. }
  rewrite L. cbn. field.
Qed.
End Ray.
Print Assumptions C75_ray_sphere.
